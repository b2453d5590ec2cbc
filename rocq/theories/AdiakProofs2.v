(* C85: the import loop *)
From Verif Require Import Base VariantModel VariantSpec TextModel AdiakModel AdiakSpec.

Lemma beq_spec a b : reflect (a = b) (beq a b).
Proof. unfold beq. destruct (list_eq_dec N.eq_dec a b); constructor; auto. Qed.
Lemma beq_refl a : beq a a = true.
Proof. destruct (beq_spec a a); congruence. Qed.
Definition attr_of (nv : nameval) (v : value) : iattr := mkia (type_of_value v) true (Some (nv_type nv, nv_cat nv, match nv_sub nv with [] => none_sub | x => x end)).
Lemma bfind_other {A} k k' (l : list (bytes * A)) : k <> k' -> bfind k (filter (fun p => negb (beq k' (fst p))) l) = bfind k l.
Proof.
  intro H. induction l as [|[x a] l IH]; [reflexivity|]. cbn [filter fst bfind]. destruct (beq_spec k' x) as [E|E]; cbn [negb].
  - subst x. destruct (beq_spec k k'); [contradiction|exact IH].
  - cbn [bfind]. destruct (beq k x); auto.
Qed.
Lemma vals_of_same n l : vals_of n (filter (fun p => negb (beq n (fst p))) l) = [].
Proof. unfold vals_of. induction l as [|[x a] l IH]; [reflexivity|]. cbn [filter fst]. destruct (beq n x) eqn:E; cbn [negb]; auto. cbn [filter fst]. rewrite E. exact IH. Qed.
Lemma vals_of_other n k l : n <> k -> vals_of n (filter (fun p => negb (beq k (fst p))) l) = vals_of n l.
Proof.
  intro H. unfold vals_of. induction l as [|[x a] l IH]; [reflexivity|]. cbn [filter fst]. destruct (beq_spec k x) as [E|E]; cbn [negb].
  - subst x. destruct (beq_spec n k); [contradiction|exact IH].
  - cbn [filter fst]. destruct (beq n x); cbn [map snd]; [f_equal|]; exact IH.
Qed.
Lemma find_app {A} f (l l' : list A) : List.find f (l ++ l') = match List.find f l with Some x => Some x | None => List.find f l' end.
Proof. induction l as [|x l IH]; [reflexivity|]. cbn [app List.find]. destruct (f x); auto. Qed.

Section Loop.
Context (dfmt : N -> bytes).
Lemma counts_value nv : counts nv = negb (nv_cat nv =? adiak_control)%Z && match import_value dfmt (nv_val nv) with Some _ => true | None => false end.
Proof. unfold counts. destruct (nv_val nv); reflexivity. Qed.
Lemma import1_eq s nv : nv_val nv <> AUnset ->
  (counts nv = false /\ import1 dfmt s nv = s) \/ (counts nv = true /\ exists v, import_value dfmt (nv_val nv) = Some v /\ import1 dfmt s nv = set_val s nv v).
Proof.
  intro H. rewrite counts_value. unfold import1. destruct (nv_cat nv =? adiak_control)%Z; cbn [negb andb]; auto.
  destruct (import_value dfmt (nv_val nv)) as [v|] eqn:E; [right|left]; (split; [reflexivity|]); [exists v; split; [reflexivity|]|]; destruct (nv_val nv); cbn [import_value] in E |- *; congruence.
Qed.
Definition after (l : list nameval) (s : ist) : ist := fold_left (import1 dfmt) l s.
Lemma loop_ok s l : no_unset l ->
  let s' := after l s in
  is_err s' = is_err s /\ is_proc s' = is_proc s /\
  (forall n, bfind n (is_vals s') = match last_for n l with Some nv => import_value dfmt (nv_val nv) | None => bfind n (is_vals s) end) /\
  (forall n, vals_of n (is_vals s') = match last_for n l with Some nv => match import_value dfmt (nv_val nv) with Some v => [v] | None => [] end | None => vals_of n (is_vals s) end) /\
  (forall n, bfind n (is_attrs s') = match bfind n (is_attrs s) with Some a => Some a | None =>
      match first_for n l with Some nv => match import_value dfmt (nv_val nv) with Some v => Some (attr_of nv v) | None => None end | None => None end end).
Proof.
  induction l as [|nv l IH] using rev_ind; intros H s'.
  - subst s'. cbn. split; [reflexivity|]. split; [reflexivity|]. split; [reflexivity|]. split; [reflexivity|]. intro n. destruct (bfind n (is_attrs s)); reflexivity.
  - apply Forall_app in H as (H & H1). apply Forall_cons_iff in H1 as (H1 & _). destruct (IH H) as (A & B & C & D & E). subst s'. unfold after in *. rewrite fold_left_app. cbn [fold_left]. set (t := fold_left (import1 dfmt) l s) in *.
    assert (L : forall n, last_for n (l ++ [nv]) = if counts nv && beq n (nv_name nv) then Some nv else last_for n l) by (intro n; unfold last_for; rewrite rev_app_distr; reflexivity).
    assert (F : forall n, first_for n (l ++ [nv]) = match first_for n l with Some x => Some x | None => if counts nv && beq n (nv_name nv) then Some nv else None end) by (intro n; unfold first_for; rewrite find_app; reflexivity).
    destruct (import1_eq t nv H1) as [(K & ->)|(K & v & V & ->)].
    + repeat (split; [assumption|]). split; [|split]; intro n; rewrite ?L, ?F, K; cbn [andb]; auto. rewrite E. destruct (bfind n (is_attrs s)), (first_for n l); reflexivity.
    + unfold set_val. cbn [is_err is_proc is_vals is_attrs]. repeat (split; [assumption|]). split; [|split]; intro n; rewrite ?L, ?F, K; cbn [andb].
      * cbn [bfind]. destruct (beq_spec n (nv_name nv)) as [Q|Q]; [auto|]. rewrite bfind_other by exact Q. apply C.
      * destruct (beq_spec n (nv_name nv)) as [Q|Q].
        -- rewrite V. unfold vals_of. cbn [filter fst]. subst n. rewrite beq_refl. cbn [map snd]. f_equal. apply vals_of_same.
        -- rewrite <- D. unfold vals_of at 1. cbn [filter fst]. destruct (beq_spec n (nv_name nv)); [contradiction|]. apply vals_of_other. exact Q.
      * destruct (bfind (nv_name nv) (is_attrs t)) as [a|] eqn:G.
        -- rewrite E. destruct (bfind n (is_attrs s)) eqn:G2; auto. destruct (first_for n l) eqn:G3; auto. destruct (beq_spec n (nv_name nv)) as [Q|Q]; auto. rewrite Q in *. rewrite E, G2, G3 in G. discriminate G.
        -- cbn [bfind]. fold (attr_of nv v). destruct (beq_spec n (nv_name nv)) as [Q|Q].
           ++ subst n. rewrite E in G. destruct (bfind (nv_name nv) (is_attrs s)); [discriminate G|]. destruct (first_for (nv_name nv) l) as [nv'|] eqn:G3; [|rewrite V; reflexivity].
              exfalso. unfold first_for in G3. apply List.find_some in G3 as (_ & G3). apply andb_true_iff in G3 as (G3 & _). rewrite counts_value in G3. apply andb_true_iff in G3 as (_ & G3). destruct (import_value dfmt (nv_val nv')); discriminate.
           ++ rewrite E. destruct (bfind n (is_attrs s)), (first_for n l); reflexivity.
Qed.
Lemma filter_filter_name {A} n (l : list (bytes * A)) (g : bytes -> bool) : filter (fun p => beq n (fst p)) (filter (fun p => g (fst p)) l) = if g n then filter (fun p => beq n (fst p)) l else [].
Proof.
  induction l as [|[x a] l IH]; [destruct (g n); reflexivity|]. cbn [filter fst]. destruct (beq_spec n x) as [Q|Q].
  - subst x. destruct (g n); cbn [filter fst]; rewrite ?beq_refl, IH; reflexivity.
  - destruct (g x); cbn [filter fst]; [destruct (beq_spec n x); [contradiction|]|]; exact IH.
Qed.
Lemma globals_ok s n : vals_of n (globals s) = if match bfind n (is_attrs s) with Some a => ia_global a | None => false end then vals_of n (is_vals s) else [].
Proof. unfold vals_of, globals. rewrite (filter_filter_name n (is_vals s) (fun n => match bfind n (is_attrs s) with Some a => ia_global a | None => false end)). destruct (bfind n (is_attrs s)) as [a|]; [destruct (ia_global a)|]; reflexivity. Qed.
End Loop.
