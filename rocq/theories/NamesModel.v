(* Model of src/common/cali_types.c: type and property names.
   Strings are byte lists without the terminating NUL; reading the position behind the last
   character gives NUL (0). *)
From Verif Require Import Base VariantModel.

Definition beqb (a b : bytes) : bool := if list_eq_dec N.eq_dec a b then true else false.

(* typemap, cali_types.c:15-21 *)
Definition typemap : list (bytes * N) :=
  [ ([105;110;118], 0) (* inv *);
    ([117;115;114], 1) (* usr *);
    ([105;110;116], 2) (* int *);
    ([117;105;110;116], 3) (* uint *);
    ([115;116;114;105;110;103], 4) (* string *);
    ([97;100;100;114], 5) (* addr *);
    ([100;111;117;98;108;101], 6) (* double *);
    ([98;111;111;108], 7) (* bool *);
    ([116;121;112;101], 8) (* type *);
    ([112;116;114], 9) (* ptr *) ].
(* cali_type2string, lines 23-26 *)
Definition type2string (t : N) : bytes :=
  if t <=? MAXTYPE then fst (nth (N.to_nat t) typemap ([], 0)) else [105;110;118].
(* cali_string2type, lines 28-35 *)
Definition string2type (s : bytes) : N :=
  match find (fun x => beqb s (fst x)) typemap with Some x => snd x | None => T_INV end.

(* propmap, lines 37-61: name, value, mask *)
Definition propmap : list (bytes * N * N) :=
  [ ([100;101;102;97;117;108;116], 0, 0) (* default *);
    ([97;115;118;97;108;117;101], 1, 1) (* asvalue *);
    ([110;111;109;101;114;103;101], 2, 2) (* nomerge *);
    ([112;114;111;99;101;115;115;95;115;99;111;112;101], 12, 60) (* process_scope *);
    ([116;104;114;101;97;100;95;115;99;111;112;101], 20, 60) (* thread_scope *);
    ([116;97;115;107;95;115;99;111;112;101], 24, 60) (* task_scope *);
    ([115;107;105;112;95;101;118;101;110;116;115], 64, 64) (* skip_events *);
    ([104;105;100;100;101;110], 128, 128) (* hidden *);
    ([110;101;115;116;101;100], 256, 256) (* nested *);
    ([103;108;111;98;97;108], 512, 512) (* global *);
    ([117;110;97;108;105;103;110;101;100], 1024, 1024) (* unaligned *);
    ([97;103;103;114;101;103;97;116;97;98;108;101], 2048, 2048) (* aggregatable *);
    ([108;101;118;101;108;95;48], 0, 458752) (* level_0 *);
    ([108;101;118;101;108;95;49], 65536, 458752) (* level_1 *);
    ([108;101;118;101;108;95;50], 131072, 458752) (* level_2 *);
    ([108;101;118;101;108;95;51], 196608, 458752) (* level_3 *);
    ([108;101;118;101;108;95;52], 262144, 458752) (* level_4 *);
    ([108;101;118;101;108;95;53], 327680, 458752) (* level_5 *);
    ([108;101;118;101;108;95;54], 393216, 458752) (* level_6 *);
    ([108;101;118;101;108;95;55], 458752, 458752) (* level_7 *) ].

(* cali_prop2string, lines 63-85: int prop as the N of its bits; out: the characters written so
   far (ret of them, ret = length out); hi: number of bytes of buf written (highest index + 1).
   The result is None for -1. *)
Record p2s := mkp2s { p2_ret : option bytes; p2_hi : N }.
Fixpoint p2s_loop (m : list (bytes * N * N)) (prop len : N) (out : bytes) (hi : N) : p2s :=
  match m with
  | [] => mkp2s (Some out) hi
  | (str, v, mask) :: r =>
      if N.land prop mask =? v then
        let ret := N.of_nat (length out) in
        let slen := N.of_nat (length str) in
        if len <? slen + (if 0 <? ret then 2 else 1) then mkp2s None hi
        else
          let out' := (if 0 <? ret then out ++ [58] else out) ++ str in
          p2s_loop r prop len out' (N.max hi (N.of_nat (length out') + 1))
      else p2s_loop r prop len out hi
  end.
Definition prop2string (prop len : N) : p2s := p2s_loop propmap prop len [] 0.

(* isalnum in the C locale *)
Definition alnum (c : N) : bool := ((48 <=? c) && (c <=? 57)) || ((65 <=? c) && (c <=? 90)) || ((97 <=? c) && (c <=? 122)).
Fixpoint is_prefix (p s : bytes) : bool :=
  match p, s with
  | [], _ => true
  | x :: p', y :: s' => (x =? y) && is_prefix p' s'
  | _ :: _, [] => false
  end.
(* strstr *)
Fixpoint strstr (s p : bytes) : option nat :=
  if is_prefix p s then Some O
  else match s with [] => None | _ :: r => match strstr r p with Some i => Some (S i) | None => None end end.
(* the condition in line 95 *)
Definition prop_match (s p : bytes) : bool :=
  match strstr s p with
  | None => false
  | Some i => (match i with O => true | S j => negb (alnum (nth j s 0)) end) && negb (alnum (nth (i + length p) s 0))
  end.
(* cali_string2prop, lines 87-100 *)
Definition string2prop (s : bytes) : N :=
  fold_left (fun prop x => if prop_match s (fst (fst x)) then N.lor prop (snd (fst x)) else prop) propmap 0.
