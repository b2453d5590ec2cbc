(* Model of src/common/util/parse_util.cpp and of the list and dictionary readers in
   src/common/StringConverter.cpp:133-305.

   An input stream is its position in a string and whether it is good(): is.get() past the end and every
   operation on a stream that is not good leave it not good and get() returns EOF, which is 255 as an
   (unsigned) char; is.unget() right after a successful get() steps back (on a stream that is not good it does
   nothing: it clears eofbit only).  std::isspace on a byte >= 128 (formally undefined for a negative char)
   is false. *)
From Verif Require Import Base TextModel.
Open Scope N_scope.

Record stream := mks { s_prev : bytes; s_rest : bytes; s_good : bool }.   (* s_prev: consumed, last first *)
Definition s_open (s : bytes) : stream := mks [] s true.
Definition s_get (s : stream) : N * stream :=
  if s_good s then match s_rest s with c :: r => (c, mks (c :: s_prev s) r true) | [] => (255, mks (s_prev s) [] false) end
  else (255, s).
Definition s_unget (s : stream) : stream :=
  if s_good s then match s_prev s with c :: p => mks p (c :: s_rest s) true | [] => mks [] (s_rest s) false end else s.
(* is_one_of, parse_util.h:20-27 *)
Definition is_one_of (c : N) (l : bytes) : bool := existsb (N.eqb c) l.

(* the loop of read_char, lines 88-97: do c = is.get() while (is.good() && isspace(c)); also lines 13-15 *)
Fixpoint get_nonspace (fuel : nat) (s : stream) : N * stream :=
  let (c, s1) := s_get s in
  match fuel with
  | O => (c, s1)
  | S f => if s_good s1 && isspace c then get_nonspace f s1 else (c, s1)
  end.
Definition read_char (s : stream) : N * stream := get_nonspace (length (s_rest s)) s.
(* read_word, lines 20-45 *)
Fixpoint word_loop (seps : bytes) (fuel : nat) (s : stream) (esc : bool) (ret : bytes) : bytes * stream :=
  match fuel with
  | O => (rev ret, s)
  | S f =>
      if s_good s then
        let (c, s1) := s_get s in
        if c =? 92 then
          let (c2, s2) := s_get s1 in
          word_loop seps f s2 esc (if s_good s2 then c2 :: ret else ret)
        else if c =? 34 then word_loop seps f s1 (negb esc) ret
        else if negb (s_good s1) then (rev ret, s1)
        else if negb esc && (isspace c || is_one_of c seps) then (rev ret, s_unget s1)
        else word_loop seps f s1 esc (c :: ret)
      else (rev ret, s)
  end.
(* read_word, lines 8-46 *)
Definition read_word (seps : bytes) (s : stream) : bytes * stream :=
  let (_, s1) := read_char s in
  let s2 := if s_good s1 then s_unget s1 else s1 in
  word_loop seps (S (S (length (s_rest s2)))) s2 false [].
(* read_nested_text, lines 48-85 *)
Fixpoint nested_loop (cs ce : N) (fuel : nat) (s : stream) (esc : bool) (depth : Z) (ret : bytes) : bytes * stream :=
  match fuel with
  | O => (rev ret, s)
  | S f =>
      if s_good s then
        let (c, s1) := s_get s in
        if c =? 92 then
          let (c2, s2) := s_get s1 in
          nested_loop cs ce f s2 esc depth (if s_good s2 then c2 :: 92 :: ret else ret)
        else
          let esc1 := if c =? 34 then negb esc else esc in
          let depth1 := if c =? 34 then depth else if negb esc && (c =? cs) then (depth + 1)%Z else if negb esc && (c =? ce) then (depth - 1)%Z else depth in
          if negb (s_good s1) then (rev ret, s1)
          else if (depth1 =? 0)%Z then (rev ret, s_unget s1)
          else nested_loop cs ce f s1 esc1 depth1 (c :: ret)
      else (rev ret, s)
  end.
Definition read_nested_text (cs ce : N) (s : stream) : bytes * stream := nested_loop cs ce (S (S (length (s_rest s)))) s false 1%Z [].

(* StringConverter::to_stringlist, lines 133-154 *)
Fixpoint stringlist_loop (seps : bytes) (fuel : nat) (s : stream) (ret : list bytes) : list bytes :=
  match fuel with
  | O => rev ret
  | S f =>
      let (w, s1) := read_word seps s in
      let ret1 := match w with [] => ret | _ => w :: ret end in
      let (c, s2) := read_char s1 in
      if s_good s2 && is_one_of c seps then stringlist_loop seps f s2 ret1 else rev ret1
  end.
Definition to_stringlist (seps s : bytes) : list bytes := stringlist_loop seps (S (length s)) (s_open s) [].
Definition c_lbrack : N := 91.  Definition c_rbrack : N := 93.  Definition c_lbrace : N := 123.  Definition c_rbrace : N := 125.  Definition c_colon : N := 58.
(* an element of a list or dictionary, lines 173-201 and 250-276: the text and the stream; None = error *)
Definition read_elem (seps : bytes) (s : stream) : option (bytes * stream) :=
  let (c, s1) := read_char s in
  if c =? c_lbrace then
    let (t, s2) := read_nested_text c_lbrace c_rbrace s1 in
    let (c2, s3) := read_char s2 in
    if c2 =? c_rbrace then Some ([c_lbrace] ++ t ++ [c_rbrace], s3) else None
  else if c =? c_lbrack then
    let (t, s2) := read_nested_text c_lbrack c_rbrack s1 in
    let (c2, s3) := read_char s2 in
    if c2 =? c_rbrack then Some ([c_lbrack] ++ t ++ [c_rbrack], s3) else None
  else Some (read_word seps (s_unget s1)).
(* StringConverter::rec_list, lines 156-220; the result and ok.  On an error in the loop c is the character
   that was read instead of the closing one *)
Fixpoint list_loop (fuel : nat) (d : bool) (s : stream) (ret : list bytes) : list bytes * bool :=
  match fuel with
  | O => (rev ret, false)
  | S f =>
      match read_elem [c_comma; c_rbrack] s with
      | None => (rev ret, false)
      | Some (w, s1) =>
          let ret1 := match w with [] => ret | _ => w :: ret end in
          let (c, s2) := read_char s1 in
          if s_good s2 && (c =? c_comma) then list_loop f d s2 ret1 else (rev ret1, negb d || (c =? c_rbrack))
      end
  end.
Definition rec_list (s : bytes) : list bytes * bool :=
  let (c, s1) := read_char (s_open s) in
  let d := c =? c_lbrack in
  list_loop (S (length s)) d (if d then s1 else if s_good s1 then s_unget s1 else s1) [].
(* StringConverter::rec_dict, lines 222-305; the assignments to the map, in order *)
Fixpoint dict_loop (fuel : nat) (s : stream) (ret : list (bytes * bytes)) : list (bytes * bytes) * bool :=
  match fuel with
  | O => (rev ret, false)
  | S f =>
      let (k, s1) := read_word [c_colon] s in
      let (c, s2) := read_char s1 in
      if negb (c =? c_colon) then (rev ret, false)
      else
        match read_elem [c_comma; c_rbrace] s2 with
        | None => (rev ret, false)
        | Some (v, s3) =>
            let ret1 := match k with [] => ret | _ => (k, v) :: ret end in
            let (c3, s4) := read_char s3 in
            if s_good s4 && (c3 =? c_comma) then dict_loop f s4 ret1 else (rev ret1, c3 =? c_rbrace)
        end
  end.
Definition rec_dict_assign (s : bytes) : list (bytes * bytes) * bool :=
  let (c, s1) := read_char (s_open s) in
  if c =? c_lbrace then dict_loop (S (length s)) s1 [] else ([], false).
(* the std::map after the assignments *)
Definition dict_lookup (l : list (bytes * bytes)) (k : bytes) : option bytes :=
  match find (fun x => if list_eq_dec N.eq_dec (fst x) k then true else false) (rev l) with Some x => Some (snd x) | None => None end.
