(* C85: importing Adiak metadata *)
From Verif Require Import Base VariantModel VariantSpec TextModel AdiakModel AdiakSpec AdiakProofs AdiakProofs2.

(* integers keep their number if it fits (long: int; unsigned int: int; date: not negative); floating point values,
   times and texts are kept as they are *)
Definition kept (v : aval) : Prop := match v with ALong z => int_range z | AUInt n => n < 2147483648 | ADate z => (0 <= z)%Z | _ => True end.
Theorem C85_number : forall dfmt v t z, has_type t v -> number_of v = Some z -> kept v -> exists x, import_value dfmt v = Some x /\ value_number x = Some z.
Proof.
  intros dfmt v t z T N K. destruct v; cbn [number_of] in N; try discriminate N; injection N as <-; destruct t; cbn [has_type] in T; try contradiction; cbn [kept] in K; cbn [import_value]; eexists; (split; [reflexivity|]); cbn [value_number]; try reflexivity.
  - rewrite trunc32_id by exact K. reflexivity.
  - rewrite as_u64_s64 by exact T. reflexivity.
  - rewrite as_int_small by exact K. rewrite as_u64_id by lia. reflexivity.
  - rewrite as_u64_s64 by exact T. reflexivity.
  - rewrite as_u64_id; [reflexivity|]. unfold s64_ok in T. lia.
Qed.
Theorem C85_other : forall dfmt b s, import_value dfmt (ADouble b) = Some (VDouble b) /\ import_value dfmt (ATimeval b) = Some (VDouble b) /\ import_value dfmt (AStr s) = Some (VStr s).
Proof. repeat split. Qed.
Lemma vstr_inj a b : Some (VStr a) = Some (VStr b) -> a = b.
Proof. intro E. injection E as E. exact E. Qed.
(* containers of integers: the text tells which value of the type it was, for every way of printing doubles *)
Theorem C85_container : forall dfmt t v w, match t with TRange _ | TSet _ | TList _ | TTuple _ => True | _ => False end ->
  has_type t v -> has_type t w -> import_value dfmt v = import_value dfmt w -> v = w.
Proof.
  intros dfmt t v w C V W E.
  assert (N : nodig [0]) by (cbn [nodig]; unfold dig; lia).
  assert (G : unpack dfmt v ++ [0] = unpack dfmt w ++ [0]).
  { destruct t; try contradiction; destruct v; cbn [has_type] in V; try contradiction; destruct w; cbn [has_type] in W; try contradiction; exact (vstr_inj _ _ E). }
  exact (proj1 (unpack_inj dfmt v t w [0] [0] V W N N G)).
Qed.

(* A flush, for every list of metadata without unset values and every state: afterwards each name has the last
   value listed for it, or what it had before; a new name's attribute is global, and has the type, category and
   subcategory of the first value listed; and a name that is new or global is a global exactly once *)
Theorem C85_import : forall dfmt listed cats s, no_unset (flat_map listed cats) ->
  let l := flat_map listed cats in let s' := import dfmt listed cats s in
  (forall n, bfind n (is_vals s') = match last_for n l with Some nv => import_value dfmt (nv_val nv) | None => bfind n (is_vals s) end) /\
  (forall n a, bfind n (is_attrs s) = Some a -> bfind n (is_attrs s') = Some a) /\
  (forall n, bfind n (is_attrs s) = None -> match first_for n l with
      | Some nv => exists ty, bfind n (is_attrs s') = Some (mkia ty true (Some (nv_type nv, nv_cat nv, sub_or_none (nv_sub nv)))) /\ attr_type (nv_val nv) = Some ty
      | None => bfind n (is_attrs s') = None end) /\
  (forall n nv, last_for n l = Some nv -> (forall a, bfind n (is_attrs s) = Some a -> ia_global a = true) ->
     exists v, import_value dfmt (nv_val nv) = Some v /\ vals_of n (globals s') = [v]) /\
  is_err s' = is_err s /\ is_proc s' = is_proc s.
Proof.
  intros dfmt listed cats s U l s'. destruct (loop_ok dfmt s l U) as (A & B & C & D & E). fold l in A. change (after dfmt l s) with s' in *.
  assert (V : forall n nv, List.find (fun nv => counts nv && beq n (nv_name nv)) l = Some nv \/ last_for n l = Some nv -> exists v, import_value dfmt (nv_val nv) = Some v).
  { intros n nv H. assert (Q : counts nv && beq n (nv_name nv) = true) by (destruct H as [H|H]; apply List.find_some in H; exact (proj2 H)).
    apply andb_true_iff in Q as (Q & _). rewrite (counts_value dfmt) in Q. apply andb_true_iff in Q as (_ & Q). destruct (import_value dfmt (nv_val nv)) as [v|]; [exists v; reflexivity|discriminate]. }
  split; [exact C|]. split; [|split; [|split; [|split; [exact A|exact B]]]].
  - intros n a H. rewrite E, H. reflexivity.
  - intros n H. specialize (E n). rewrite H in E. destruct (first_for n l) as [nv|] eqn:G; [|exact E]. destruct (V n nv (or_introl G)) as (v & W). rewrite W in E. exists (type_of_value v). split; [rewrite E; unfold attr_of; destruct (nv_sub nv); reflexivity|]. clear - W. destruct (nv_val nv); cbn [import_value] in W; try discriminate W; injection W as <-; reflexivity.
  - intros n nv H G. destruct (V n nv (or_intror H)) as (v & W). exists v. split; [exact W|]. rewrite globals_ok. specialize (D n). rewrite H, W in D. rewrite D.
    replace (match bfind n (is_attrs s') with Some a => ia_global a | None => false end) with true; [reflexivity|]. specialize (E n). destruct (bfind n (is_attrs s)) as [a|] eqn:Ga.
    + rewrite E. symmetry. apply G. reflexivity.
    + destruct (first_for n l) as [nv'|] eqn:F.
      * destruct (V n nv' (or_introl F)) as (v' & W'). rewrite W' in E. rewrite E. reflexivity.
      * exfalso. unfold last_for in H. apply List.find_some in H as (I & H). apply in_rev in I. unfold first_for in F. pose proof (List.find_none _ _ F nv I) as F1. cbn beta in F1. rewrite H in F1. discriminate F1.
Qed.

(* a concrete case *)
Definition a_name (n : N) : bytes := [97; n].
Definition a_type : bytes := [116].
Definition a_list (c : Z) : list nameval :=
  if (c =? 2)%Z then
    [mknv (a_name 48) 2 [] a_type (ALong (-5)); mknv (a_name 49) 2 [117] a_type (AStr [104; 105]);
     mknv (a_name 50) 4 [] a_type (AInt 1);
     mknv (a_name 51) 2 [] a_type (ASet [ATuple [AInt (-1); ARange (AUInt 7) (AUInt 4000000000)]; ATuple [AInt 20; ARange (AUInt 0) (AUInt 1)]])]
  else [mknv (a_name 48) 3 [120] a_type (AULong 18446744073709551615)].
Definition a_start : ist := mkis [(a_name 49, mkia T_STRING true None)] [(a_name 49, VStr [111]); (a_name 57, VInt 1)] [] false.
Theorem C85_ex : forall dfmt, no_unset (flat_map a_list [2; 3]%Z) /\
  import dfmt a_list [2; 3]%Z a_start =
  mkis [(a_name 51, mkia T_STRING true (Some (a_type, 2%Z, none_sub))); (a_name 48, mkia T_INT true (Some (a_type, 2%Z, none_sub))); (a_name 49, mkia T_STRING true None)]
       [(a_name 48, VUint 18446744073709551615); (a_name 51, VStr (map (fun c => c) [91; 40; 45;49; 44; 55; 45; 52;48;48;48;48;48;48;48;48;48; 41; 44; 40; 50;48; 44; 48; 45; 49; 41; 93; 0])); (a_name 49, VStr [104; 105]); (a_name 57, VInt 1)] [] false /\
  map fst (globals (import dfmt a_list [2; 3]%Z a_start)) = [a_name 48; a_name 51; a_name 49].
Proof. intro dfmt. split; [repeat constructor; discriminate|]. split; vm_compute; reflexivity. Qed.
Theorem C85_container_ex : exists v, has_type (TSet (TTuple [TInt; TRange TUInt])) v /\ v = ASet [ATuple [AInt (-1); ARange (AUInt 7) (AUInt 4000000000)]; ATuple [AInt 20; ARange (AUInt 0) (AUInt 1)]].
Proof. eexists. split; [|reflexivity]. cbn [has_type fold_right]. unfold int_range. repeat split; lia. Qed.

(* ---------- where it fails ---------- *)
(* a long that is not an int is truncated *)
Theorem C85_long_refuted : forall dfmt, s64_ok 4294967301 /\ import_value dfmt (ALong 4294967301) = Some (VInt 5).
Proof. intro. split; [unfold s64_ok; lia|reflexivity]. Qed.
(* an unsigned int from 2^31 on is extended with its sign *)
Theorem C85_uint_refuted : forall dfmt, has_type TUInt (AUInt 3000000000) /\ import_value dfmt (AUInt 3000000000) = Some (VUint 18446744072414584320).
Proof. intro. split; [cbn [has_type]; lia|reflexivity]. Qed.
(* a date before 1970 *)
Theorem C85_date_refuted : forall dfmt, s64_ok (-1) /\ import_value dfmt (ADate (-1)) = Some (VUint 18446744073709551615).
Proof. intro. split; [unfold s64_ok; lia|reflexivity]. Qed.
(* the value of every container ends with a NUL byte *)
Theorem C85_nul_refuted : forall dfmt t v, match t with TRange _ | TSet _ | TList _ | TTuple _ => True | _ => False end -> has_type t v ->
  exists s, import_value dfmt v = Some (VStr (s ++ [0])).
Proof. intros dfmt t v C V. destruct t; try contradiction; destruct v; cbn [has_type] in V; try contradiction; cbn [import_value]; eexists; reflexivity. Qed.
(* different lists of texts have one value *)
Theorem C85_texts_refuted : forall dfmt, AList [AStr [97; 44; 98]] <> AList [AStr [97]; AStr [98]] /\ import_value dfmt (AList [AStr [97; 44; 98]]) = import_value dfmt (AList [AStr [97]; AStr [98]]).
Proof. intro. split; [discriminate|reflexivity]. Qed.
(* a name that exists as an attribute that is not global: the value is set, but it is not a global *)
Theorem C85_existing_refuted : forall dfmt,
  let s := mkis [(a_name 48, mkia T_INT false None)] [] [] false in let l := fun _ : Z => [mknv (a_name 48) 2 [] a_type (AInt 3)] in
  is_vals (import dfmt l [2]%Z s) = [(a_name 48, VInt 3)] /\ globals (import dfmt l [2]%Z s) = [].
Proof. intro dfmt. split; vm_compute; reflexivity. Qed.
(* unsetting an imported value: it stays, and the thread ignores every begin and end from then on *)
Theorem C85_unset_refuted : forall dfmt listed cats s n nv, no_unset (flat_map listed cats) -> last_for n (flat_map listed cats) = Some nv ->
  bfind n (is_attrs s) = None -> existsb (beq n) (is_proc s) = false -> is_err s = false ->
  forall c sub ty, (c <> adiak_control)%Z ->
  let s1 := import dfmt listed cats s in let s2 := import1 dfmt s1 (mknv n c sub ty AUnset) in
  is_vals s2 = is_vals s1 /\ globals s2 = globals s1 /\ is_err s1 = false /\ is_err s2 = true.
Proof.
  intros dfmt listed cats s n nv U L A P R c sub ty K s1 s2. destruct (C85_import dfmt listed cats s U) as (_ & _ & T & _ & Er & Pr). fold s1 in T, Er, Pr. specialize (T n A).
  destruct (first_for n (flat_map listed cats)) as [nv1|] eqn:F.
  - destruct T as (t & T & _). subst s2. unfold import1. cbn [nv_cat nv_val nv_name]. destruct (Z.eqb_spec c adiak_control) as [X|X]; [contradiction|]. rewrite T. cbn [ia_global]. unfold end_global. rewrite Er, R, Pr, P. cbn [is_vals is_err]. repeat split.
  - exfalso. unfold last_for in L. apply List.find_some in L as (I & H). apply in_rev in I. unfold first_for in F. pose proof (List.find_none _ _ F nv I) as F1. cbn beta in F1. rewrite H in F1. discriminate F1.
Qed.
