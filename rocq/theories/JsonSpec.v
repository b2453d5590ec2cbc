(* A reader for JSON texts (RFC 8259), used to say what a program that reads Caliper's JSON output finds.
   It accepts a part of JSON: no exponents in numbers, no \u escapes, only ASCII characters. *)
From Verif Require Import Base.

Inductive json := JNull | JBool (b : bool) | JNum (text : bytes) | JStr (s : bytes) | JArr (l : list json) | JObj (l : list (bytes * json)).

Definition jws (c : N) : bool := (c =? 32) || (c =? 9) || (c =? 10) || (c =? 13).
Fixpoint skip (s : bytes) : bytes := match s with c :: r => if jws c then skip r else s | [] => [] end.
(* the rest of a string after the opening quote, up to the closing quote *)
Definition unescape (c : N) : option N :=
  if c =? 34 then Some 34 else if c =? 92 then Some 92 else if c =? 47 then Some 47 else if c =? 98 then Some 8 else
  if c =? 102 then Some 12 else if c =? 110 then Some 10 else if c =? 114 then Some 13 else if c =? 116 then Some 9 else None.
Fixpoint jchars (s : bytes) : option (bytes * bytes) :=
  match s with
  | [] => None
  | c :: r =>
    if c =? 34 then Some ([], r)
    else if c =? 92 then
      match r with
      | e :: r' => match unescape e, jchars r' with Some x, Some (t, rest) => Some (x :: t, rest) | _, _ => None end
      | [] => None
      end
    else if (c <? 32) || (127 <? c) then None
    else match jchars r with Some (t, rest) => Some (c :: t, rest) | None => None end
  end.
Definition digit (c : N) : bool := (48 <=? c) && (c <=? 57).
Fixpoint span_digits (s : bytes) : bytes * bytes := match s with c :: r => if digit c then let (a, b) := span_digits r in (c :: a, b) else ([], s) | [] => ([], []) end.
Definition jsign (s : bytes) : bytes * bytes := match s with 45 :: r => ([45], r) | _ => ([], s) end.
(* [-] int [frac]: no leading zeros *)
Definition jnumber (s : bytes) : option (bytes * bytes) :=
  let (sg, r) := jsign s in
  let (i, r1) := span_digits r in
  match i with
  | [] => None
  | d :: t => if (d =? 48) && negb (match t with [] => true | _ => false end) then None
              else match r1 with
                   | 46 :: r2 => let (f, r3) := span_digits r2 in match f with [] => None | _ => Some (sg ++ i ++ 46 :: f, r3) end
                   | _ => Some (sg ++ i, r1)
                   end
  end.
Fixpoint strip (p s : bytes) : option bytes := match p, s with [], _ => Some s | a :: p', b :: s' => if a =? b then strip p' s' else None | _, [] => None end.
Fixpoint jval (fuel : nat) (s : bytes) {struct fuel} : option (json * bytes) :=
  match fuel with
  | O => None
  | S f =>
    match skip s with
    | [] => None
    | c :: r =>
      if c =? 34 then match jchars r with Some (t, rest) => Some (JStr t, rest) | None => None end
      else if c =? 123 then match skip r with 125 :: rest => Some (JObj [], rest) | _ => match jmembers f r with Some (l, rest) => Some (JObj l, rest) | None => None end end
      else if c =? 91 then match skip r with 93 :: rest => Some (JArr [], rest) | _ => match jelements f r with Some (l, rest) => Some (JArr l, rest) | None => None end end
      else if c =? 116 then match strip [114; 117; 101] r with Some rest => Some (JBool true, rest) | None => None end
      else if c =? 102 then match strip [97; 108; 115; 101] r with Some rest => Some (JBool false, rest) | None => None end
      else if c =? 110 then match strip [117; 108; 108] r with Some rest => Some (JNull, rest) | None => None end
      else match jnumber (c :: r) with Some (t, rest) => Some (JNum t, rest) | None => None end
    end
  end
with jmembers (fuel : nat) (s : bytes) {struct fuel} : option (list (bytes * json) * bytes) :=
  match fuel with
  | O => None
  | S f =>
    match skip s with
    | 34 :: r =>
      match jchars r with
      | Some (k, r1) =>
        match skip r1 with
        | 58 :: r2 =>
          match jval f r2 with
          | Some (v, r3) =>
            match skip r3 with
            | 44 :: r4 => match jmembers f r4 with Some (l, rest) => Some ((k, v) :: l, rest) | None => None end
            | 125 :: rest => Some ([(k, v)], rest)
            | _ => None
            end
          | None => None
          end
        | _ => None
        end
      | None => None
      end
    | _ => None
    end
  end
with jelements (fuel : nat) (s : bytes) {struct fuel} : option (list json * bytes) :=
  match fuel with
  | O => None
  | S f =>
    match jval f s with
    | Some (v, r) =>
      match skip r with
      | 44 :: r' => match jelements f r' with Some (l, rest) => Some (v :: l, rest) | None => None end
      | 93 :: rest => Some ([v], rest)
      | _ => None
      end
    | None => None
    end
  end.
(* a whole text: one value, with white space around it *)
Definition jread (s : bytes) : option json :=
  match jval (2 * length s + 2) s with Some (v, rest) => match skip rest with [] => Some v | _ => None end | None => None end.

(* number texts: [-] int [. digits], no leading zeros *)
Inductive jnum : bytes -> Prop :=
| jn_intro (neg : bool) (d : N) (t : bytes) (fr : option bytes) : forallb digit (d :: t) = true -> (d = 48 -> t = []) ->
    (forall f, fr = Some f -> f <> [] /\ forallb digit f = true) ->
    jnum ((if neg then [45] else []) ++ d :: t ++ match fr with Some f => 46 :: f | None => [] end).
