(* Model of src/caliper/RegionFilter.{h,cpp}: parsing of region filter configurations and matching.
   std::regex is a parameter: rx_ok tells whether a pattern compiles and rx_match whether std::regex_match
   accepts a text.  Error messages are modelled by their cause (they are never empty). *)
From Verif Require Import Base TextModel ParseModel.
Open Scope N_scope.

Definition c_lpar : N := 40.  Definition c_rpar : N := 41.
Definition f_seps : bytes := [c_comma; c_lpar; c_rpar].                       (* ",()" *)
Definition k_match : bytes := [109; 97; 116; 99; 104].
Definition k_startswith : bytes := [115; 116; 97; 114; 116; 115; 119; 105; 116; 104].
Definition k_regex : bytes := [114; 101; 103; 101; 120].
Definition eqb_bytes (a b : bytes) : bool := if list_eq_dec N.eq_dec a b then true else false.

(* RegionFilter::Filter, RegionFilter.h:24-28 *)
Record rfilter := mkF { f_starts : list bytes; f_match : list bytes; f_regex : list bytes }.
Inductive ferr := EParen (fn : bytes) | ERegex (r : bytes).

(* ArgumentListParser::parse, RegionFilter.cpp:31-55: the arguments (None = missing ')') and the stream *)
Fixpoint args_loop (fuel : nat) (s : stream) (ret : list bytes) : list bytes * N * stream :=
  match fuel with
  | O => (rev ret, 0, s)
  | S f =>
      let (w, s1) := read_word f_seps s in
      let ret1 := match w with [] => ret | _ => w :: ret end in
      let (c, s2) := read_char s1 in
      if s_good s2 && (c =? c_comma) then args_loop f s2 ret1 else (rev ret1, c, s2)
  end.
Definition parse_args (s : stream) : option (list bytes) * stream :=
  let (c, s1) := read_char s in
  if negb (c =? c_lpar) then (Some [], s_unget s1)
  else
    let '(l, c2, s2) := args_loop (S (length (s_rest s1))) s1 [] in
    (if c2 =? c_rpar then Some l else None, s2).

Section RX.
Variable rx_ok : bytes -> bool.
Variable rx_match : bytes -> bytes -> bool.

(* the body of the loop of parse_filter_config, RegionFilter.cpp:69-108; an error ends the loop *)
Definition filter_item (s : stream) (f : rfilter) : (rfilter + ferr) * stream :=
  let (w, s1) := read_word f_seps s in
  if eqb_bytes w k_match then
    match parse_args s1 with
    | (Some l, s2) => (inl (mkF (f_starts f) (f_match f ++ l) (f_regex f)), s2)
    | (None, s2) => (inr (EParen k_match), s2)
    end
  else if eqb_bytes w k_startswith then
    match parse_args s1 with
    | (Some l, s2) => (inl (mkF (f_starts f ++ l) (f_match f) (f_regex f)), s2)
    | (None, s2) => (inr (EParen k_startswith), s2)
    end
  else if eqb_bytes w k_regex then
    match parse_args s1 with
    | (Some l, s2) =>
        match find (fun r => negb (rx_ok r)) l with
        | Some r => (inr (ERegex r), s2)
        | None => (inl (mkF (f_starts f) (f_match f) (f_regex f ++ l)), s2)
        end
    | (None, s2) => (inr (EParen k_regex), s2)
    end
  else match w with [] => (inl f, s1) | _ => (inl (mkF (f_starts f) (f_match f ++ [w]) (f_regex f)), s1) end.
Fixpoint filter_loop (fuel : nat) (s : stream) (f : rfilter) : rfilter + ferr :=
  match fuel with
  | O => inl f
  | S n =>
      match filter_item s f with
      | (inr e, _) => inr e
      | (inl f1, s1) =>
          let (c, s2) := read_char s1 in
          if s_good s2 && (c =? c_comma) then filter_loop n s2 f1 else inl f1
      end
  end.
(* parse_filter_config, RegionFilter.cpp:60-118: no filter if there is nothing in it *)
Definition parse_filter_config (t : bytes) : option rfilter + ferr :=
  match filter_loop (S (length t)) (s_open t) (mkF [] [] []) with
  | inr e => inr e
  | inl f => inl (match f_match f, f_starts f, f_regex f with [], [], [] => None | _, _, _ => Some f end)
  end.
(* RegionFilter::match, RegionFilter.cpp:120-141; w.compare(0, n, p, n) == 0 compares n bytes *)
Definition rmatch (v : bytes) (f : rfilter) : bool :=
  existsb (fun w => (length w <=? length v)%nat && eqb_bytes w (firstn (length w) v)) (f_starts f) ||
  existsb (fun w => (length v =? length w)%nat && eqb_bytes w (firstn (length w) v)) (f_match f) ||
  existsb (fun r => rx_match r v) (f_regex f).
(* m_include_filters and m_exclude_filters *)
Record region_filter := mkRF { rf_incl : option rfilter; rf_excl : option rfilter }.
(* pass, RegionFilter.h:43-53 *)
Definition pass (rf : region_filter) (v : bytes) : bool :=
  if match rf_excl rf with Some e => rmatch v e | None => false end then false
  else match rf_incl rf with Some i => rmatch v i | None => true end.
(* has_filters, RegionFilter.h:55 *)
Definition has_filters (rf : region_filter) : bool :=
  match rf_excl rf, rf_incl rf with None, None => false | _, _ => true end.
(* from_config, RegionFilter.cpp:143-169 *)
Definition from_config (incl excl : bytes) : region_filter * option ferr :=
  match parse_filter_config incl with
  | inr e => (mkRF None None, Some e)
  | inl i =>
      match parse_filter_config excl with
      | inr e => (mkRF None None, Some e)
      | inl x => (mkRF i x, None)
      end
  end.
End RX.
