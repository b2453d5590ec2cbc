(* C52: the C++ annotation objects *)
From Verif Require Import Base VariantModel VariantSpec FloatModel TreeModel TreeSpec TreeProofs TreeProofs2 RuntimeModel RuntimeSpec RuntimeProofs RuntimeProofs2 RuntimeProps AnnotModel.

Section SI.
Variable P : stmt -> Prop.
Hypothesis H1 : forall o, P (UDecl o).
Hypothesis H2 : forall b, Forall P b -> P (UBlock b).
Hypothesis H3 : forall c b1 b2, Forall P b1 -> Forall P b2 -> P (UIf c b1 b2).
Hypothesis H4 : forall n b, Forall P b -> P (URepeat n b).
Hypothesis H5 : P ULeave.
Hypothesis H6 : forall b, Forall P b -> P (UCatch b).
Hypothesis H7 : forall a, P (UQuery a).
Fixpoint stmt_ind' (s : stmt) : P s :=
  let all := fix all (l : list stmt) : Forall P l := match l with [] => Forall_nil _ | x :: r => Forall_cons _ (stmt_ind' x) (all r) end in
  match s with
  | UDecl o => H1 o | UBlock b => H2 b (all b) | UIf c b1 b2 => H3 c b1 b2 (all b1) (all b2) | URepeat n b => H4 n b (all b) | ULeave => H5 | UCatch b => H6 b (all b) | UQuery a => H7 a
  end.
End SI.

Section T.
Variables region_attr loop_attr : attr.
Notation urun := (urun region_attr loop_attr).
Notation ctor := (ctor region_attr loop_attr).
Notation dtor := (dtor region_attr loop_attr).
Definition ublock (b : list stmt) : list rop * bool := urun (UBlock b).
Definition obj_attr (o : aobj) : attr := match o with JScope _ => region_attr | JLoop _ => loop_attr | JIter a _ => a | JGuard a _ => a end.
Definition obj_val (o : aobj) : value := match o with JScope v | JLoop v | JGuard _ v => v | JIter _ i => VInt i end.

(* an as-value attribute (such as a loop's iteration number) is not begun again while an object for it exists *)
Inductive stmt_ok : stmt -> Prop :=
| so_decl o : stmt_ok (UDecl o)
| so_block b : block_ok b -> stmt_ok (UBlock b)
| so_if c b1 b2 : block_ok b1 -> block_ok b2 -> stmt_ok (UIf c b1 b2)
| so_repeat n b : block_ok b -> stmt_ok (URepeat n b)
| so_leave : stmt_ok ULeave
| so_catch b : block_ok b -> stmt_ok (UCatch b)
| so_query a : stmt_ok (UQuery a)
with block_ok : list stmt -> Prop :=
| bo_nil : block_ok []
| bo_decl o r : block_ok r -> (asvalue (obj_attr o) = true -> forall b w, In (OBegin b w) (fst (ublock r)) -> at_id b <> at_id (obj_attr o)) -> block_ok (UDecl o :: r)
| bo_stmt s r : (forall o, s <> UDecl o) -> stmt_ok s -> block_ok r -> block_ok (s :: r).

Lemma ublock_nil : ublock [] = ([], false). Proof. reflexivity. Qed.
Lemma ublock_decl o r : ublock (UDecl o :: r) = (ctor o ++ fst (ublock r) ++ dtor o, snd (ublock r)).
Proof. unfold ublock. cbn [AnnotModel.urun]. match goal with |- context [let (_, _) := ?x in _] => destruct x end. reflexivity. Qed.
Lemma ublock_stmt s r : (forall o, s <> UDecl o) -> ublock (s :: r) = if snd (urun s) then (fst (urun s), true) else (fst (urun s) ++ fst (ublock r), snd (ublock r)).
Proof.
  intro H. unfold ublock. destruct s as [o|b|c b1 b2|n b| |b|a]; try (exfalso; apply (H o); reflexivity); cbn [AnnotModel.urun]; try reflexivity;
    match goal with |- (let (_, _) := ?x in _) = _ => destruct x as (o1, l1) end; cbn [fst snd]; destruct l1; auto; match goal with |- (let (_, _) := ?x in _) = _ => destruct x as (o2, l2) end; reflexivity.
Qed.
Lemma nested_app x y : nested x -> nested y -> nested (x ++ y).
Proof.
  intros Hx Hy. induction Hx as [|a v e body rest Ha He Hb IHb Hr IHr|a v e body rest Ha He Hf Hb IHb Hr IHr|a rest Hr IH|c rest Hr IH|c rest Hr IH|o rest Hr IH]; auto; cbn [app].
  - rewrite <- app_assoc. cbn [app]. apply ne_region; auto.
  - rewrite <- app_assoc. cbn [app]. apply ne_value; auto.
  - apply ne_get; auto. - apply ne_activate; auto. - apply ne_deactivate; auto. - apply ne_tree; auto.
Qed.
Lemma obj_nested o body : nested body -> (asvalue (obj_attr o) = true -> forall b w, In (OBegin b w) body -> at_id b <> at_id (obj_attr o)) -> nested (ctor o ++ body ++ dtor o).
Proof.
  intros Hb Hf. assert (E : ctor o ++ body ++ dtor o = OBegin (obj_attr o) (obj_val o) :: body ++ OEnd (obj_attr o) :: []) by (destruct o; reflexivity). rewrite E.
  destruct (asvalue (obj_attr o)) eqn:Ea.
  - apply ne_value; [exact Ea| |exact (Hf eq_refl)|exact Hb|constructor]. left; reflexivity.
  - apply ne_region; [exact Ea| |exact Hb|constructor]. left; reflexivity.
Qed.
Lemma repeat_nested n r : nested (fst r) -> nested (fst (urepeat n r)).
Proof. intro H. induction n as [|n IH]; cbn [urepeat]; [constructor|]. destruct (snd r); auto. destruct (urepeat n r) as (o, l). cbn [fst] in *. apply nested_app; auto. Qed.
Lemma stmt_nested : forall s, stmt_ok s -> nested (fst (urun s)).
Proof.
  assert (B : forall b, Forall (fun s => stmt_ok s -> nested (fst (urun s))) b -> block_ok b -> nested (fst (ublock b))).
  { intros b HF. induction HF as [|s b Hs HF IH]; intro OK; [rewrite ublock_nil; constructor|]. inversion OK as [|o r O1 O2|s' r O1 O2 O3]; subst.
    - rewrite ublock_decl. cbn [fst]. apply obj_nested; auto.
    - rewrite ublock_stmt by auto. destruct (snd (urun s)); cbn [fst]; auto using nested_app. }
  induction s as [o|b Hb|c b1 b2 Hb1 Hb2|n b Hb| |b Hb|a] using stmt_ind'; intro OK.
  - change (fst (urun (UDecl o))) with (ctor o ++ [] ++ dtor o). apply obj_nested; [constructor|intros _ b w []].
  - inversion OK; subst. apply (B b Hb); auto.
  - inversion OK; subst. change (fst (urun (UIf c b1 b2))) with (fst (if c then ublock b1 else ublock b2)). destruct c; [apply (B b1)|apply (B b2)]; auto.
  - inversion OK; subst. change (fst (urun (URepeat n b))) with (fst (urepeat n (ublock b))). apply repeat_nested. apply (B b); auto.
  - constructor.
  - inversion OK; subst. change (fst (urun (UCatch b))) with (fst (ublock b)). apply (B b); auto.
  - cbn. apply ne_get. constructor.
Qed.
(* Whatever way control takes through code whose annotations are scope objects - early returns,
   exceptions, conditionals, loops - its begin and end calls are properly nested *)
Theorem C52_scopes_nested s : stmt_ok s -> nested (fst (urun s)).
Proof. apply stmt_nested. Qed.
(* objects are destroyed in the reverse order of their declaration, also when control leaves before the block's end; later declarations are never reached *)
Theorem C52_leave_closes os rest :
  ublock (map UDecl os ++ ULeave :: rest) = (map (fun o => OBegin (obj_attr o) (obj_val o)) os ++ map (fun o => OEnd (obj_attr o)) (rev os), true) /\
  ublock (map UDecl os) = (map (fun o => OBegin (obj_attr o) (obj_val o)) os ++ map (fun o => OEnd (obj_attr o)) (rev os), false).
Proof.
  induction os as [|o os (I1 & I2)]; cbn [map app rev]; [split; reflexivity|].
  rewrite !ublock_decl, I1, I2. cbn [fst snd]. rewrite map_app. cbn [map].
  assert (E : ctor o = [OBegin (obj_attr o) (obj_val o)] /\ dtor o = [OEnd (obj_attr o)]) by (destruct o; split; reflexivity). destruct E as (-> & ->).
  cbn [app]. rewrite !app_assoc. split; reflexivity.
Qed.
(* ... so the thread's context is the same afterwards and no call is an error, whatever other threads do meanwhile *)
Theorem C52_scopes_restore_context st t s ops st' xs : rt_reach st -> r_err st t = false -> ops_ok st ops -> rt_run st ops = Some (st', xs) -> not_full (r_tree st') ->
  stmt_ok s -> ops_of t ops = fst (urun s) -> Forall no_process (ops_of t ops) ->
  (forall a v, In (OBegin a v) (ops_of t ops) -> asvalue a = true -> rt_get st t a = None) ->
  same_ctx (r_tree st) (r_tbb st t) (r_tree st') (r_tbb st' t) /\ ~ In OError (outs_of t ops xs) /\ r_err st' t = false.
Proof. intros. eapply C18_nesting_restores_thread_context; eauto. rewrite H5. apply C52_scopes_nested. auto. Qed.
End T.

(* ---------------- Loop handles ---------------- *)
Definition isfin (c : lcall) : bool := match c with LE1 f | LE2 f | LE3 f => f | LD => true end.
Definition nfin (l : list lcall) : nat := length (filter isfin l).
Definition nnon (l : list lcall) : nat := length (filter (fun c => negb (isfin c)) l).
Record linv (s : loopst) : Prop := mklinv {
  li_rc : lp_rc s = Z.of_nat (lp_handles s + nnon (lp_calls s));
  li_fin : (nfin (lp_calls s) + lp_freed s = if (lp_rc s =? 0)%Z then 1 else 0)%nat }.
Lemma nfin_mid p c q : nfin (p ++ c :: q) = ((if isfin c then 1 else 0) + nfin p + nfin q)%nat.
Proof. unfold nfin. rewrite filter_app, app_length. cbn [filter]. destruct (isfin c); cbn [length]; lia. Qed.
Lemma nnon_mid p c q : nnon (p ++ c :: q) = ((if isfin c then 0 else 1) + nnon p + nnon q)%nat.
Proof. unfold nnon. rewrite filter_app, app_length. cbn [filter]. destruct (isfin c); cbn [negb length]; lia. Qed.
Lemma nfin_app p q : nfin (p ++ q) = (nfin p + nfin q)%nat. Proof. unfold nfin. rewrite filter_app, app_length. auto. Qed.
Lemma nnon_app p q : nnon (p ++ q) = (nnon p + nnon q)%nat. Proof. unfold nnon. rewrite filter_app, app_length. auto. Qed.
Lemma lstep_inv s s' : linv s -> lstep s s' -> linv s'.
Proof.
  intros [I1 I2] H. destruct H as [s Hh|s h Hh|s h Hh|s p fin q E L|s p fin q E L|s p fin q E|s p fin q E|s p q E]; split; cbn [lp_rc lp_level lp_handles lp_calls lp_ends lp_freed];
    try rewrite E in I1; try rewrite E in I2; rewrite ?nfin_mid, ?nnon_mid in *; cbn [isfin] in *.
  - rewrite I1. lia.
  - rewrite I2. destruct (Z.eqb_spec (lp_rc s) 0); [lia|]. destruct (Z.eqb_spec (lp_rc s + 1) 0); lia.
  - rewrite Hh in I1. destruct (Z.eqb_spec (lp_rc s - 1) 0); unfold nnon in *; cbn [filter isfin negb]; lia.
  - rewrite Hh in I1. destruct (Z.eqb_spec (lp_rc s) 0); [lia|]. destruct (Z.eqb_spec (lp_rc s - 1) 0); unfold nfin in *; cbn [filter isfin length]; lia.
  - rewrite Hh in I1. unfold nnon in *. cbn [filter isfin negb length]. lia.
  - unfold nfin in *. cbn [filter isfin]. auto.
  - auto. - auto.
  - unfold after. destruct fin; cbn [fst snd]; rewrite ?nnon_mid, ?nnon_app; cbn [isfin]; lia.
  - unfold after. destruct fin; cbn [fst snd]; rewrite ?nfin_mid, ?nfin_app; cbn [isfin]; lia.
  - auto. - auto.
  - unfold after. destruct fin; cbn [fst snd]; rewrite ?nnon_mid, ?nnon_app; cbn [isfin]; lia.
  - unfold after. destruct fin; cbn [fst snd]; rewrite ?nfin_mid, ?nfin_app; cbn [isfin]; lia.
  - rewrite nnon_app. lia.
  - rewrite nfin_app. lia.
Qed.
Lemma lreach_inv s : lreach s -> linv s.
Proof. induction 1 as [|s s' H IH S]; [split; reflexivity|eapply lstep_inv; eauto]. Qed.
Lemma calls_nil l : nfin l = 0%nat -> nnon l = 0%nat -> l = [].
Proof. destruct l as [|c l]; auto. unfold nfin, nnon. cbn [filter]. destruct (isfin c); cbn [negb length]; discriminate. Qed.
(* Copies of a Loop object may be used and destroyed by any number of threads in any order: the
   shared implementation object is freed exactly once, when the last handle is gone and no call is
   using it any more *)
Theorem C52_loop_freed_once s : lreach s -> (lp_freed s <= 1)%nat /\ (lp_freed s = 1%nat <-> lp_handles s = 0%nat /\ lp_calls s = []).
Proof.
  intro H. destruct (lreach_inv s H) as [I1 I2]. split; [destruct (lp_rc s =? 0)%Z; lia|]. split.
  - intro F. destruct (Z.eqb_spec (lp_rc s) 0); [|lia]. split; [lia|]. apply calls_nil; lia.
  - intros (E1 & E2). rewrite E1, E2 in I1. rewrite E2 in I2. unfold nfin, nnon in *. cbn [filter length] in *. rewrite I1 in I2. cbn in I2. auto.
Qed.
(* the loop is closed exactly once, by the first end() or the last destructor, if calls do not overlap *)
Inductive lreach1 : loopst -> Prop := l1_init : lreach1 loop_init | l1_step s s' : lreach1 s -> lstep s s' -> (length (lp_calls s') <= 1)%nat -> lreach1 s'.
Lemma one_call {A} p (c : A) q : (length (p ++ c :: q) <= 1)%nat -> p = [] /\ q = [].
Proof. rewrite app_length. cbn [length]. intro H. destruct p, q; cbn [length] in H; auto; lia. Qed.
Definition ends_inv (s : loopst) : Prop :=
  (length (lp_calls s) <= 1)%nat /\ match lp_calls s with
  | [LE2 _] => lp_ends s = 0%nat /\ lp_level s = 1%Z
  | [LE3 _] => lp_ends s = 1%nat /\ lp_level s = 1%Z
  | [LD] => lp_ends s = 1%nat /\ lp_level s = 0%Z
  | _ => (lp_ends s = 0%nat /\ lp_level s = 1%Z) \/ (lp_ends s = 1%nat /\ lp_level s = 0%Z)
  end /\ (lp_freed s = 0%nat \/ lp_ends s = 1%nat).
Lemma lreach1_inv s : lreach1 s -> ends_inv s.
Proof.
  assert (R : forall s, lreach1 s -> lreach s) by (induction 1; [constructor|econstructor; eauto]).
  induction 1 as [|s s' H IH S L]; [split; [cbn; lia|]; split; [left; auto|left; auto]|]. split; auto. destruct IH as (_ & I1 & I2).
  pose proof (C52_loop_freed_once s (R s H)) as (F1 & F2).
  destruct S as [s Hh|s h Hh|s h Hh|s p fin q E Lv|s p fin q E Lv|s p fin q E|s p fin q E|s p q E]; cbn [lp_rc lp_level lp_handles lp_calls lp_ends lp_freed] in *.
  - split; auto.
  - split; auto. destruct (lp_rc s - 1 =? 0)%Z; auto. assert (E : lp_calls s = []) by (destruct (lp_calls s); auto; cbn [length] in L; lia). rewrite E in *. auto.
  - split; auto. assert (E : lp_calls s = []) by (destruct (lp_calls s); auto; cbn [length] in L; lia). rewrite E in *. auto.
  - destruct (one_call p (LE2 fin) q L) as (-> & ->). cbn [app] in *. rewrite E in I1. split; auto. destruct I1 as [?|(? & ?)]; auto. lia.
  - unfold after in *. destruct fin; cbn [snd] in *.
    + destruct (one_call p LD q L) as (-> & ->). cbn [app] in *. rewrite E in I1. split; auto. destruct I1 as [(? & ?)|?]; auto. lia.
    + destruct p as [|c p]; [destruct q as [|c q]|]; cbn [app length] in *; rewrite E in I1; cbn [app] in I1.
      * split; auto.
      * exfalso. assert (X : (length (lp_calls s) <= 1)%nat) by (pose proof (l1_init); clear -H; induction H; cbn; auto; lia). rewrite E in X. cbn [length] in X. lia.
      * exfalso. assert (X : (length (lp_calls s) <= 1)%nat) by (clear -H; induction H; cbn; auto; lia). rewrite E in X. cbn [app length] in X. rewrite app_length in X. cbn [length] in X. lia.
  - destruct (one_call p (LE3 fin) q L) as (-> & ->). cbn [app] in *. rewrite E in I1. destruct I1 as (-> & ?). split; auto.
  - assert (X : (length (lp_calls s) <= 1)%nat) by (clear -H; induction H; cbn; auto; lia). rewrite E in X. destruct (one_call p (LE3 fin) q X) as (-> & ->). cbn [app] in *. rewrite E in I1. destruct I1 as (-> & ->). split; auto.
    unfold after. destruct fin; cbn [snd app]; auto.
  - assert (X : (length (lp_calls s) <= 1)%nat) by (clear -H; induction H; cbn; auto; lia). rewrite E in X. destruct (one_call p LD q X) as (-> & ->). cbn [app] in *. rewrite E in I1. destruct I1 as (-> & ->). split; auto.
Qed.
Theorem C52_loop_closed_once_partial s : lreach1 s -> (lp_ends s <= 1)%nat /\ (lp_freed s = 1%nat -> lp_ends s = 1%nat).
Proof.
  intro H. destruct (lreach1_inv s H) as (L & I1 & I2). split; [|intro F; destruct I2; auto; lia].
  destruct (lp_calls s) as [|c [|c' l]]; [destruct I1 as [(-> & _)|(-> & _)]; lia| |cbn [length] in L; lia]. destruct c; destruct I1 as [I1|I1] || destruct I1 as (I1 & ?); try (destruct I1 as (-> & _)); try lia.
Qed.
(* two handles whose end() calls overlap close the loop twice *)
Theorem C52_loop_concurrent_end_refuted : exists s, lreach s /\ lp_ends s = 2%nat.
Proof.
  exists (mkloop 2 1 0 [LE3 false; LE3 false] 2 0). split; [|reflexivity].
  apply (lr_step (mkloop 2 1 0 [LE3 false; LE2 false] 1 0)); [|apply (ls_close (mkloop 2 1 0 [LE3 false; LE2 false] 1 0) [LE3 false] false []); reflexivity].
  apply (lr_step (mkloop 2 1 0 [LE2 false; LE2 false] 0 0)); [|apply (ls_close (mkloop 2 1 0 [LE2 false; LE2 false] 0 0) [] false [LE2 false]); reflexivity].
  apply (lr_step (mkloop 2 1 0 [LE2 false; LE1 false] 0 0)); [|apply (ls_read (mkloop 2 1 0 [LE2 false; LE1 false] 0 0) [LE2 false] false []); reflexivity].
  apply (lr_step (mkloop 2 1 0 [LE1 false; LE1 false] 0 0)); [|apply (ls_read (mkloop 2 1 0 [LE1 false; LE1 false] 0 0) [] false [LE1 false]); reflexivity].
  apply (lr_step (mkloop 2 1 1 [LE1 false] 0 0)); [|apply (ls_end (mkloop 2 1 1 [LE1 false] 0 0) 0); reflexivity].
  apply (lr_step (mkloop 2 1 2 [] 0 0)); [|apply (ls_end (mkloop 2 1 2 [] 0 0) 1); reflexivity].
  apply (lr_step loop_init); [|apply (ls_copy loop_init); cbn; lia].
  constructor.
Qed.

(* ---------------- Annotation handles ---------------- *)
(* detach decrements and reads the count in two steps: two threads that give up the last two
   handles at the same time both free the object *)
Theorem C52_annotation_double_free_refuted : exists s, anreach s /\ an_freed s = 2%nat.
Proof.
  exists (mkann 0 0 0 2). split; [|reflexivity].
  apply (anr_step (mkann 0 0 1 1)); [|apply (an_check (mkann 0 0 1 1) 0); reflexivity].
  apply (anr_step (mkann 0 0 2 0)); [|apply (an_check (mkann 0 0 2 0) 1); reflexivity].
  apply (anr_step (mkann 1 1 1 0)); [|apply (an_dec (mkann 1 1 1 0) 0); reflexivity].
  apply (anr_step (mkann 2 2 0 0)); [|apply (an_dec (mkann 2 2 0 0) 1); reflexivity].
  apply (anr_step ann_init); [|apply (an_attach ann_init); cbn; lia].
  constructor.
Qed.
(* without such overlap it is freed once, when the last handle (Annotation or Guard) is gone *)
Inductive anreach1 : annst -> Prop := a1_init : anreach1 ann_init | a1_step s s' : anreach1 s -> anstep s s' -> (an_after s = 0%nat \/ an_after s' = 0%nat) -> anreach1 s'.
Theorem C52_annotation_freed_once_partial s : anreach1 s -> (an_freed s <= 1)%nat /\ (an_after s = 0%nat -> (an_freed s = 1%nat <-> an_handles s = 0%nat)).
Proof.
  intro H. assert (I : an_rc s = Z.of_nat (an_handles s) /\ (an_after s <= 1)%nat /\ (an_freed s <= 1)%nat /\ (an_after s = 1%nat -> an_freed s = 0%nat) /\ (an_after s = 0%nat -> (an_freed s = 1%nat <-> an_handles s = 0%nat))).
  { induction H as [|s s' H IH S L]; [cbn; repeat split; lia|]. destruct IH as (I1 & I2 & I3 & I4 & I5). destruct S as [s Hh|s h Hh|s k E]; cbn [an_rc an_handles an_after an_freed] in *.
    - repeat split; try lia.
    - destruct L as [L|L]; [|lia]. specialize (I5 L). repeat split; try lia.
    - rewrite E in *. assert (k = 0%nat) by lia. subst k. specialize (I4 eq_refl). destruct (Z.eqb_spec (an_rc s) 0); repeat split; try lia. }
  split; [apply I|apply I].
Qed.

(* ---------------- values ---------------- *)
(* the first value of an Annotation for a new attribute gives the attribute its type; from then on
   exactly the values of that type reach the runtime *)
Fixpoint ann_calls (known existing : option N) (l : list value) : list (option value) :=
  match l with [] => [] | v :: r => let (x, k) := impl_value known existing v in x :: ann_calls k existing r end.
Theorem C52_annotation_values v l : val_type v <> 0 ->
  ann_calls None None (v :: l) = Some v :: map (fun w => if val_type w =? val_type v then Some w else None) l.
Proof.
  intro H. cbn [ann_calls impl_value get_attr_type]. rewrite N.eqb_refl. destruct (N.eqb_spec (val_type v) 0); [contradiction|]. cbn [andb negb]. f_equal.
  induction l as [|w l IH]; auto. cbn [ann_calls impl_value get_attr_type map]. rewrite IH. f_equal. rewrite (N.eqb_sym (val_type w)). destruct (N.eqb_spec (val_type v) (val_type w)); auto. rewrite (proj2 (N.eqb_neq (val_type v) 0)) by auto. auto.
Qed.
(* integer arguments work for integer, unsigned and double attributes once the attribute is known ... *)
Theorem C52_int_values existing z : (-2147483648 <= z < 2147483648)%Z ->
  fst (int_value (Some 2) existing z) = Some (VInt z) /\ fst (int_value (Some 3) existing z) = Some (VUint (int_to_u64 z)) /\ fst (int_value (Some 6) existing z) = Some (VDouble (d_of_Z z)) /\
  ((0 <= z)%Z -> Z.of_N (int_to_u64 z) = z) /\ ((z < 0)%Z -> Z.of_N (int_to_u64 z) = (z + 18446744073709551616)%Z).
Proof.
  intro H. repeat split; auto.
  - intro Hz. unfold int_to_u64. rewrite Z.mod_small by lia. apply Z2N.id. auto.
  - intro Hz. unfold int_to_u64. rewrite <- (Z.mod_add z 1 18446744073709551616) by lia. rewrite Z.mod_small by lia. rewrite Z2N.id; lia.
Qed.
(* ... but the first begin(int) or set(int) of an Annotation for an existing double attribute is lost, while the second one is not *)
Theorem C52_first_int_lost_refuted : exists z k, int_value None (Some 6) z = (None, k) /\ fst (int_value k (Some 6) z) = Some (VDouble (d_of_Z z)).
Proof. exists 1%Z, (Some 6). split; reflexivity. Qed.

(* ---------------- examples ---------------- *)
(* a function with an annotated loop that is left in its second iteration by an exception caught by the caller *)
Definition x_reg : attr := mkattr 20 276.
Definition x_loop : attr := mkattr 21 276.
Definition x_it : attr := mkattr 22 21.
Definition x_prog : stmt := UCatch [UDecl (JScope (VStr [102])); UDecl (JLoop (VStr [108])); URepeat 1 [UDecl (JIter x_it 0)]; UIf true [UDecl (JIter x_it 1); UDecl (JScope (VStr [103])); ULeave; UDecl (JScope (VStr [104]))] []; UDecl (JScope (VStr [105]))].
Example C52_ex_ok : stmt_ok x_reg x_loop x_prog.
Proof.
  apply so_catch. apply bo_decl; [apply bo_decl; [apply bo_stmt; [discriminate|apply so_repeat; apply bo_decl; [constructor|intros _ b w []]|]|discriminate]|discriminate].
  apply bo_stmt; [discriminate| |apply bo_decl; [constructor|intros _ b w []]]. apply so_if; [|constructor].
  apply bo_decl; [apply bo_decl; [apply bo_stmt; [discriminate|constructor|apply bo_decl; [constructor|intros _ b w []]]|discriminate]|].
  intros _ b w H. cbn in H. destruct H as [H|[H|[]]]; inversion H; subst; cbn; discriminate.
Qed.
Example C52_ex_run : fst (urun x_reg x_loop x_prog) =
  [OBegin x_reg (VStr [102]); OBegin x_loop (VStr [108]); OBegin x_it (VInt 0); OEnd x_it; OBegin x_it (VInt 1); OBegin x_reg (VStr [103]); OEnd x_reg; OEnd x_it; OEnd x_loop; OEnd x_reg].
Proof. reflexivity. Qed.
Example C52_ex_loop : exists s, lreach1 s /\ lp_freed s = 1%nat /\ lp_ends s = 1%nat.
Proof.
  exists (mkloop 0 0 0 [] 1 1). split; [|split; reflexivity].
  apply (l1_step (mkloop 0 0 0 [LD] 1 0)); [|apply (ls_delete (mkloop 0 0 0 [LD] 1 0) [] []); reflexivity|cbn; lia].
  apply (l1_step (mkloop 0 1 0 [LE3 true] 1 0)); [|apply (ls_dec (mkloop 0 1 0 [LE3 true] 1 0) [] true []); reflexivity|cbn; lia].
  apply (l1_step (mkloop 0 1 0 [LE2 true] 0 0)); [|apply (ls_close (mkloop 0 1 0 [LE2 true] 0 0) [] true []); reflexivity|cbn; lia].
  apply (l1_step (mkloop 0 1 0 [LE1 true] 0 0)); [|apply (ls_read (mkloop 0 1 0 [LE1 true] 0 0) [] true []); reflexivity|cbn; lia].
  apply (l1_step loop_init); [|apply (ls_destroy loop_init 0); reflexivity|cbn; lia].
  constructor.
Qed.
Print Assumptions C52_scopes_restore_context.
