From Coq Require Import Strings.Ascii Strings.String.
From Coq Require Import Sorting.Sorted.
From Verif Require Import Base NamesModel TextModel ParseModel ParseSpec RConfigModel JsonModel CfgModel CfgSpec.
Open Scope N_scope.

Lemma keq_spec a b : keq a b = true <-> a = b.
Proof. unfold keq. destruct (list_eq_dec N.eq_dec a b); split; congruence. Qed.
Lemma keq_refl a : keq a a = true. Proof. apply keq_spec. reflexivity. Qed.
Lemma keq_false a b : keq a b = false <-> a <> b.
Proof. unfold keq. destruct (list_eq_dec N.eq_dec a b); split; congruence. Qed.
Lemma mem_spec x l : mem x l = true <-> In x l.
Proof. unfold mem. rewrite existsb_exists. split; [intros (y & H & E); apply keq_spec in E; subst; exact H|intro H; exists x; split; [exact H|apply keq_refl]]. Qed.
Lemma mem_false x l : mem x l = false <-> ~ In x l.
Proof. rewrite <- mem_spec. destruct (mem x l); split; congruence. Qed.

(* ---------- lookup ---------- *)
Lemma lookup_app {A} (a b : list (bytes * A)) k : lookup (a ++ b) k = match lookup a k with Some v => Some v | None => lookup b k end.
Proof. induction a as [|(x, v) a IH]; cbn [app lookup]; [reflexivity|]. destruct (keq k x); [reflexivity|exact IH]. Qed.
Lemma lookup_in {A} (m : list (bytes * A)) k v : lookup m k = Some v -> In (k, v) m.
Proof. induction m as [|(x, w) m IH]; cbn [lookup]; [discriminate|]. destruct (keq k x) eqn:E; [|intro H; right; auto]. apply keq_spec in E. intro H. injection H as ->. subst. left. reflexivity. Qed.
Lemma lookup_none {A} (m : list (bytes * A)) k : lookup m k = None <-> ~ In k (map fst m).
Proof.
  induction m as [|(x, w) m IH]; cbn [lookup map fst]; [split; [intros _ []|reflexivity]|]. destruct (keq k x) eqn:E.
  - apply keq_spec in E. split; [discriminate|]. intro H. exfalso. apply H. left. congruence.
  - apply keq_false in E. rewrite IH. split; [intros H [D|D]; [congruence|auto]|intros H D; apply H; right; exact D].
Qed.
Lemma lookup_some {A} (m : list (bytes * A)) k : (exists v, lookup m k = Some v) <-> In k (map fst m).
Proof.
  destruct (lookup m k) as [v|] eqn:E.
  - split; [|eauto]. intros _. apply lookup_in in E. apply in_map_iff. exists (k, v). auto.
  - split; [intros (v & D); discriminate D|]. intro D. apply lookup_none in E. contradiction.
Qed.

(* ---------- inheritance ---------- *)
Section INH.
Variable s : ospec.
(* the fold over the inherited options *)
Definition inh_step (f : nat) (ret : option (list bytes)) (inh : bytes) : option (list bytes) :=
  match ret, inherited f s inh with Some l, Some t => Some (l ++ t ++ [inh]) | _, _ => None end.
Lemma fold_none f l : fold_left (inh_step f) l None = None.
Proof. induction l; [reflexivity|exact IHl]. Qed.
Lemma fold_inh f l : forall acc r, fold_left (inh_step f) l (Some acc) = Some r -> exists ts, Forall2 (fun b t => inherited f s b = Some t) l ts /\ r = acc ++ flat_map (fun p => snd p ++ [fst p]) (combine l ts).
Proof.
  induction l as [|b l IH]; intros acc r; cbn [fold_left]; intro H.
  - injection H as <-. exists []. split; [constructor|]. symmetry. apply app_nil_r.
  - cbn [inh_step] in H. destruct (inherited f s b) as [t|] eqn:E; [|rewrite fold_none in H; discriminate H]. apply IH in H. destruct H as (ts & F & ->). exists (t :: ts). split; [constructor; assumption|]. cbn [combine flat_map fst snd]. rewrite <- !app_assoc. reflexivity.
Qed.
Lemma inherited_unfold f name : inherited (S f) s name = match lookup s name with None => Some [] | Some o => fold_left (inh_step f) (op_inherit o) (Some []) end.
Proof. reflexivity. Qed.
Lemma inherited_in f : forall a t, inherited f s a = Some t -> forall k, In k t <-> exists o b, lookup s a = Some o /\ In b (op_inherit o) /\ reaches s b k.
Proof.
  induction f as [|f IH]; intros a t H k; [discriminate H|]. rewrite inherited_unfold in H. destruct (lookup s a) as [o|] eqn:E.
  - apply fold_inh in H. destruct H as (ts & F & ->). cbn [app]. rewrite in_flat_map. split.
    + intros ((b, u) & Hp & Hk). cbn [fst snd] in Hk. assert (Hb : In b (op_inherit o)) by (eapply in_combine_l; exact Hp). exists o, b. split; [reflexivity|]. split; [exact Hb|].
      assert (Hu : inherited f s b = Some u). { clear -F Hp. induction F as [|x y l l' Hx F IHF]; cbn [combine] in Hp; [contradiction|]. destruct Hp as [D|D]; [injection D as <- <-; exact Hx|auto]. }
      apply in_app_or in Hk. destruct Hk as [Hk|[<-|[]]]; [|constructor]. apply (IH b u Hu) in Hk. destruct Hk as (o2 & c & E2 & Hc & R). exact (r_step s b o2 c k E2 Hc R).
    + intros (o2 & b & E2 & Hb & R). injection E2 as <-.
      assert (X : exists u, In (b, u) (combine (op_inherit o) ts) /\ inherited f s b = Some u). { clear -F Hb. induction F as [|x y l l' Hx F IHF]; [contradiction|]. destruct Hb as [<-|Hb]; [exists y; split; [left; reflexivity|exact Hx]|]. destruct (IHF Hb) as (u & H1 & H2). exists u. split; [right; exact H1|exact H2]. }
      destruct X as (u & Hp & Hu). exists (b, u). split; [exact Hp|]. cbn [fst snd]. apply in_or_app. inversion R as [x|x o3 c k' E3 Hc R3]; subst; [right; left; reflexivity|]. left. apply (IH b u Hu). exists o3, c. auto.
  - injection H as <-. split; [intros []|]. intros (o & b & D & _). discriminate D.
Qed.
(* more stack does not change the result *)
Lemma inherited_mono f : forall g a t, inherited f s a = Some t -> (f <= g)%nat -> inherited g s a = Some t.
Proof.
  induction f as [|f IH]; intros g a t H L; [discriminate H|]. destruct g as [|g]; [lia|]. rewrite inherited_unfold in *. destruct (lookup s a) as [o|]; [|exact H].
  revert H. generalize (@nil bytes) as acc. induction (op_inherit o) as [|b l IHl]; intros acc H; [exact H|]. cbn [fold_left inh_step] in *. destruct (inherited f s b) as [u|] eqn:E; [|rewrite fold_none in H; discriminate H]. rewrite (IH g b u E) by lia. apply IHl. exact H.
Qed.
Lemma inherited_total rank : acyclic s rank -> forall f a, (rank a < f)%nat -> exists t, inherited f s a = Some t.
Proof.
  intros A. induction f as [|f IH]; intros a L; [lia|]. rewrite inherited_unfold. destruct (lookup s a) as [o|] eqn:E; [|eauto]. specialize (A a o). assert (B : forall b, In b (op_inherit o) -> (rank b < f)%nat) by (intros b Hb; specialize (A b E Hb); lia). clear A E.
  generalize (@nil bytes) as acc. induction (op_inherit o) as [|b l IHl]; intro acc; [exists acc; reflexivity|]. cbn [fold_left inh_step]. destruct (IH b (B b (or_introl eq_refl))) as (u & ->). apply IHl. intros c Hc. apply B. right. exact Hc.
Qed.
End INH.

(* ---------- enabled options ---------- *)
Lemma dedup_aux l : forall acc, fold_left (fun ret x => if mem x ret then ret else ret ++ [x]) l acc = acc ++ fold_left (fun ret x => if mem x acc || mem x ret then ret else ret ++ [x]) l [].
Proof.
  induction l as [|x l IH] using rev_ind; intro acc; [symmetry; apply app_nil_r|]. rewrite !fold_left_app. cbn [fold_left]. rewrite IH. set (r := fold_left _ l []). unfold mem at 1. rewrite existsb_app. fold (mem x acc) (mem x r). destruct (mem x acc || mem x r); [reflexivity|]. rewrite app_assoc. reflexivity.
Qed.
Lemma dedup_snoc l x : dedup (l ++ [x]) = if mem x (dedup l) then dedup l else dedup l ++ [x].
Proof. unfold dedup. rewrite fold_left_app. reflexivity. Qed.
Lemma dedup_in l x : In x (dedup l) <-> In x l.
Proof.
  induction l as [|y l IH] using rev_ind; [reflexivity|]. rewrite dedup_snoc, in_app_iff. destruct (mem y (dedup l)) eqn:E.
  - apply mem_spec in E. rewrite IH. split; [auto|]. intros [H|[<-|[]]]; [exact H|]. apply IH. exact E.
  - rewrite in_app_iff, IH. reflexivity.
Qed.
Lemma nodup_snoc {A} (l : list A) x : NoDup l -> ~ In x l -> NoDup (l ++ [x]).
Proof. intros H Hx. induction H as [|y l Hy H IH]; cbn [app]; constructor; [intros []|constructor| |]. - intro D. apply in_app_or in D. destruct D as [D|[<-|[]]]; [contradiction|]. apply Hx. left. reflexivity. - apply IH. intro D. apply Hx. right. exact D. Qed.
Lemma dedup_nodup l : NoDup (dedup l).
Proof.
  induction l as [|y l IH] using rev_ind; [constructor|]. rewrite dedup_snoc. destruct (mem y (dedup l)) eqn:E; [exact IH|]. apply mem_false in E. apply nodup_snoc; assumption.
Qed.
Lemma dedup_app l l' : dedup (l ++ l') = dedup l ++ filter (fun x => negb (mem x (dedup l))) (dedup l').
Proof.
  induction l' as [|y l' IH] using rev_ind; [cbn; rewrite !app_nil_r; reflexivity|]. rewrite app_assoc, !dedup_snoc, IH. unfold mem at 1. rewrite existsb_app. fold (mem y (dedup l)).
  assert (X : existsb (keq y) (filter (fun x => negb (mem x (dedup l))) (dedup l')) = negb (mem y (dedup l)) && mem y (dedup l')).
  { apply Bool.eq_iff_eq_true. fold (mem y (filter (fun x => negb (mem x (dedup l))) (dedup l'))). rewrite mem_spec, filter_In, andb_true_iff, mem_spec. tauto. }
  rewrite X. destruct (mem y (dedup l)) eqn:E1; cbn [orb negb andb].
  - destruct (mem y (dedup l')); [reflexivity|]. rewrite filter_app. cbn [filter]. rewrite E1. cbn [negb]. rewrite app_nil_r. reflexivity.
  - destruct (mem y (dedup l')) eqn:E2; [reflexivity|]. rewrite filter_app. cbn [filter]. rewrite E1. cbn [negb]. rewrite app_assoc. reflexivity.
Qed.
Section EN.
Variable s : ospec.
Variable depth : nat.
Definition en_step (ret : option (list bytes)) (p : bytes * bytes) : option (list bytes) :=
  match ret with
  | None => None
  | Some l => if arg_on s p then match inherited depth s (fst p) with Some t => Some (l ++ fst p :: t) | None => None end else Some l
  end.
Definition en1 (p : bytes * bytes) : option (list bytes) := if arg_on s p then match inherited depth s (fst p) with Some t => Some (fst p :: t) | None => None end else Some [].
Lemma en_none l : fold_left en_step l None = None.
Proof. induction l; auto. Qed.
Lemma en_fold l : forall acc, fold_left en_step l (Some acc) = match fold_left en_step l (Some []) with Some r => Some (acc ++ r) | None => None end.
Proof.
  induction l as [|p l IH]; intro acc; cbn [fold_left]; [rewrite app_nil_r; reflexivity|]. cbn [en_step]. destruct (arg_on s p); [|apply IH]. destruct (inherited depth s (fst p)) as [t|]; [|rewrite en_none; reflexivity]. cbn [app]. rewrite IH, (IH (fst p :: t)). destruct (fold_left en_step l (Some [])); [|reflexivity]. rewrite <- app_assoc. reflexivity.
Qed.
Lemma en_app l l' : enabled_all depth s (l ++ l') = match enabled_all depth s l, enabled_all depth s l' with Some a, Some b => Some (a ++ b) | _, _ => None end.
Proof.
  unfold enabled_all. change (fun (ret : option (list bytes)) (p : bytes * bytes) => match ret with Some l0 => if arg_on s p then match inherited depth s (fst p) with Some t => Some (l0 ++ fst p :: t) | None => None end else Some l0 | None => None end) with en_step.
  rewrite fold_left_app. destruct (fold_left en_step l (Some [])) as [a|]; [apply en_fold|apply en_none].
Qed.
Lemma en_one p : enabled_all depth s [p] = en1 p.
Proof. unfold enabled_all, en1. cbn [fold_left]. destruct (arg_on s p); [|reflexivity]. destruct (inherited depth s (fst p)); reflexivity. Qed.
Lemma en_in args : forall l, enabled_all depth s args = Some l -> forall k, In k l <-> exists a v, In (a, v) args /\ arg_on s (a, v) = true /\ reaches s a k.
Proof.
  induction args as [|p args IH] using rev_ind; intros l H k.
  - injection H as <-. split; [intros []|]. intros (a & v & [] & _).
  - rewrite en_app, en_one in H. destruct (enabled_all depth s args) as [x|]; [|discriminate H]. destruct (en1 p) as [y|] eqn:E; [|discriminate H]. injection H as <-. rewrite in_app_iff, (IH x eq_refl k).
    assert (Y : In k y <-> arg_on s p = true /\ reaches s (fst p) k).
    { unfold en1 in E. destruct (arg_on s p) eqn:Ea; [|injection E as <-; split; [intros []|intros (D & _); discriminate D]]. destruct (inherited depth s (fst p)) as [t|] eqn:Ei; [|discriminate E]. injection E as <-. assert (T := inherited_in s depth (fst p) t Ei k). cbn [In]. rewrite T. split.
      - intros [<-|(o & b & E1 & E2 & R)]; (split; [reflexivity|]); [constructor|exact (r_step s (fst p) o b k E1 E2 R)].
      - intros (_ & R). inversion R as [u|u o c w E3 Hc R3]; subst; [left; reflexivity|right; exists o, c; auto]. }
    rewrite Y. split.
    + intros [(a & v & H1 & H2)|(H1 & H2)]; [exists a, v; rewrite in_app_iff; auto|]. exists (fst p), (snd p). rewrite <- surjective_pairing, in_app_iff. cbn [In]. auto.
    + intros (a & v & H1 & H2 & H3). apply in_app_or in H1. destruct H1 as [H1|[->|[]]]; [left; exists a, v; auto|right; auto].
Qed.
End EN.
Lemma to_bool_says v b : to_bool_str v = Some b <-> says v b.
Proof.
  unfold to_bool_str. change [116; 114; 117; 101] with (bs "true"). change [116] with (bs "t"). change [102; 97; 108; 115; 101] with (bs "false"). change [102] with (bs "f").
  change beqb with keq. destruct (keq (map tolower v) (bs "true")) eqn:E1; [apply keq_spec in E1|apply keq_false in E1]; cbn [orb].
  - split; [intro H; injection H as <-; constructor; left; auto|]. intro H. destruct H as [H|H|n H H2]; [reflexivity| |].
    + rewrite E1 in H. destruct H as [D|[D|[]]]; discriminate D.
    + exfalso. apply H. left. auto.
  - destruct (keq (map tolower v) (bs "t")) eqn:E2; [apply keq_spec in E2|apply keq_false in E2].
    + split; [intro H; injection H as <-; constructor; right; left; auto|]. intro H. destruct H as [H|H|n H H2]; [reflexivity| |].
      * rewrite E2 in H. destruct H as [D|[D|[]]]; discriminate D.
      * exfalso. apply H. right. left. auto.
    + destruct (keq (map tolower v) (bs "false")) eqn:E3; [apply keq_spec in E3|apply keq_false in E3]; cbn [orb].
      * split; [intro H; injection H as <-; constructor; left; auto|]. intro H. destruct H as [H|H|n H H2]; [destruct H as [D|[D|[]]]; congruence|reflexivity|]. exfalso. apply H. right. right. left. auto.
      * destruct (keq (map tolower v) (bs "f")) eqn:E4; [apply keq_spec in E4|apply keq_false in E4].
        -- split; [intro H; injection H as <-; constructor; right; left; auto|]. intro H. destruct H as [H|H|n H H2]; [destruct H as [D|[D|[]]]; congruence|reflexivity|]. exfalso. apply H. right. right. right. left. auto.
        -- assert (N4 : ~ In (map tolower v) [bs "true"; bs "t"; bs "false"; bs "f"]) by (intros [D|[D|[D|[D|[]]]]]; congruence). split.
           ++ destruct (stoull 10 v) as [n|] eqn:E; [|discriminate]. intro H. injection H as <-. apply says_number; assumption.
           ++ intro H. destruct H as [H|H|n H H2]; [exfalso; destruct H as [D|[D|[]]]; congruence|exfalso; destruct H as [D|[D|[]]]; congruence|]. rewrite H2. reflexivity.
Qed.
Lemma arg_on_spec s a v : arg_on s (a, v) = true <-> switches_on s a v.
Proof.
  unfold arg_on, switches_on. cbn [fst snd]. destruct (lookup s a) as [o|]; [|split; [discriminate|intros (o & D & _); discriminate D]]. destruct (keq (op_type o) (bs "bool")) eqn:E.
  - apply keq_spec in E. split.
    + intro H. exists o. split; [reflexivity|]. intros _. apply to_bool_says. destruct (to_bool_str v) as [[]|]; congruence.
    + intros (o' & D & H). injection D as <-. apply H, to_bool_says in E. rewrite E. reflexivity.
  - apply keq_false in E. split; [|reflexivity]. intros _. exists o. split; [reflexivity|]. contradiction.
Qed.

(* ---------- services ---------- *)
Lemma bltb_irrefl a : bltb a a = false.
Proof. induction a as [|x a IH]; cbn; [reflexivity|]. rewrite N.ltb_irrefl, N.eqb_refl. exact IH. Qed.
Lemma bltb_trans a : forall b c, bltb a b = true -> bltb b c = true -> bltb a c = true.
Proof.
  induction a as [|x a IH]; intros [|y b] [|z c]; cbn; try congruence. destruct (N.ltb_spec x y) as [L|L].
  - intros _. destruct (N.ltb_spec y z) as [L2|L2]; [intros _; rewrite (proj2 (N.ltb_lt x z)); [reflexivity|lia]|]. destruct (N.eqb_spec y z) as [->|]; [|discriminate]. intros _. rewrite (proj2 (N.ltb_lt x z) L). reflexivity.
  - destruct (N.eqb_spec x y) as [->|]; [|discriminate]. intro H1. destruct (N.ltb_spec y z); [reflexivity|]. destruct (N.eqb_spec y z); [|discriminate]. apply IH. exact H1.
Qed.
Lemma bltb_total a : forall b, bltb a b = true \/ a = b \/ bltb b a = true.
Proof.
  induction a as [|x a IH]; intros [|y b]; cbn; auto. destruct (N.ltb_spec x y) as [L|L]; [auto|]. destruct (N.eqb_spec x y) as [->|Ne].
  - rewrite N.ltb_irrefl, N.eqb_refl. destruct (IH b) as [H|[->|H]]; auto.
  - right. right. rewrite (proj2 (N.ltb_lt y x)); [reflexivity|lia].
Qed.
Definition weak (l : list bytes) : Prop := StronglySorted (fun a b => bltb b a = false) l.
Lemma sins_in x l y : In y (sins x l) <-> y = x \/ In y l.
Proof.
  induction l as [|z l IH]; cbn [sins]; [cbn; intuition|]. destruct (bltb z x); cbn [In]; [rewrite IH; intuition|intuition].
Qed.
Lemma sins_weak x l : weak l -> weak (sins x l).
Proof.
  intro H. induction H as [|z l Hs IH Hf]; cbn [sins]; [constructor; constructor|]. destruct (bltb z x) eqn:E.
  - constructor; [exact IH|]. apply Forall_forall. intros y Hy. apply sins_in in Hy. destruct Hy as [->|Hy]; [|rewrite Forall_forall in Hf; auto]. destruct (bltb x z) eqn:E2; [|reflexivity]. assert (D := bltb_trans _ _ _ E E2). rewrite bltb_irrefl in D. discriminate D.
  - constructor; [constructor; assumption|]. constructor; [exact E|]. apply Forall_forall. intros y Hy. rewrite Forall_forall in Hf. specialize (Hf y Hy). destruct (bltb y x) eqn:E2; [|reflexivity]. exfalso. destruct (bltb_total y z) as [T|[->|T]]; [congruence|congruence|]. rewrite (bltb_trans z y x T E2) in E. discriminate E.
Qed.
Lemma ssorted_weak l : weak (ssorted l).
Proof. induction l as [|x l IH]; [constructor|]. cbn. apply sins_weak. exact IH. Qed.
Lemma ssorted_in l x : In x (ssorted l) <-> In x l.
Proof. induction l as [|y l IH]; [reflexivity|]. cbn [ssorted fold_right]. fold (ssorted l). rewrite sins_in, IH. cbn [In]. intuition. Qed.
Lemma uniq_in l x : In x (uniq l) <-> In x l.
Proof.
  induction l as [|y [|z l] IH]; [reflexivity|reflexivity|]. change (uniq (y :: z :: l)) with (if keq y z then uniq (z :: l) else y :: uniq (z :: l)). destruct (keq y z) eqn:E; cbn [In]; rewrite IH; [apply keq_spec in E; subst; cbn [In]; intuition|reflexivity].
Qed.
Lemma uniq_inc l : weak l -> increasing (uniq l).
Proof.
  intro H. induction H as [|y l Hs IH Hf]; [constructor|]. destruct l as [|z l]; [constructor; constructor|]. change (uniq (y :: z :: l)) with (if keq y z then uniq (z :: l) else y :: uniq (z :: l)). destruct (keq y z) eqn:E; [exact IH|]. apply keq_false in E. constructor; [exact IH|]. apply Forall_forall. intros x Hx. apply (proj1 (uniq_in (z :: l) x)) in Hx. rewrite Forall_forall in Hf.
  assert (Hx' := Hf x Hx). destruct (bltb_total y x) as [T|[->|T]]; [exact T| |congruence]. exfalso. apply StronglySorted_inv in Hs. destruct Hs as (_ & Hz). rewrite Forall_forall in Hz. assert (Hz1 := Hf z (or_introl eq_refl)). destruct Hx as [<-|Hx]; [congruence|]. specialize (Hz x Hx). destruct (bltb_total x z) as [T|[T|T]]; congruence.
Qed.

(* ---------- placeholders ---------- *)
Lemma expand_app p : literal p -> forall r v, expand (p ++ r) v = p ++ expand r v.
Proof.
  induction 1 as [|c t Hc H IH|c t Hc H IH]; intros r v; [reflexivity| |].
  - cbn [app expand]. rewrite (proj2 (N.eqb_neq c 123) Hc), IH. reflexivity.
  - cbn [app expand]. change (123 =? 123) with true. cbv iota. rewrite (proj2 (N.eqb_neq c 125) Hc), IH. reflexivity.
Qed.
Lemma expand_pieces ps v : Forall literal ps -> expand (joinc [123; 125] ps) v = joinc v ps.
Proof.
  intro H. destruct H as [|p ps Hp H]; [reflexivity|]. cbn [joinc]. rewrite expand_app by exact Hp. f_equal. induction H as [|q ps Hq H IH]; [reflexivity|].
  change (flat_map (fun y : list N => [123; 125] ++ y) (q :: ps)) with (123 :: 125 :: (q ++ flat_map (fun y : list N => [123; 125] ++ y) ps)).
  transitivity (v ++ expand (q ++ flat_map (fun y : list N => [123; 125] ++ y) ps) v); [reflexivity|]. rewrite expand_app by exact Hq. cbn [flat_map]. rewrite <- app_assoc. do 2 f_equal. exact IH.
Qed.

(* ---------- merging ---------- *)
Definition is_meta (p : bytes * bytes) : bool := keq (fst p) (bs "metadata").
Lemma merge_lookup from : forall to k, k <> bs "metadata" -> lookup (merge_new to from) k = match lookup to k with Some v => Some v | None => lookup from k end.
Proof.
  induction from as [|(a, v) from IH]; intros to k Hk; [cbn; destruct (lookup to k); reflexivity|]. unfold merge_new in *. cbn [fold_left]. rewrite IH by exact Hk. unfold merge1. cbn [fst]. cbn [lookup]. destruct (lookup to a) as [w|] eqn:E.
  - destruct (keq a (bs "metadata")) eqn:Em.
    + apply keq_spec in Em. rewrite lookup_app. destruct (lookup to k); [reflexivity|]. cbn [lookup]. rewrite (proj2 (keq_false k a)) by congruence. reflexivity.
    + destruct (lookup to k) eqn:E2; [reflexivity|]. rewrite (proj2 (keq_false k a)); [reflexivity|]. intros ->. congruence.
  - rewrite lookup_app. destruct (lookup to k) eqn:E2; [reflexivity|]. cbn [lookup]. destruct (keq k a); reflexivity.
Qed.
Lemma merge_meta from : forall to, filter is_meta (merge_new to from) = filter is_meta to ++ filter is_meta from.
Proof.
  induction from as [|p from IH]; intro to; [cbn; rewrite app_nil_r; reflexivity|]. unfold merge_new in *. cbn [fold_left]. rewrite IH. unfold merge1. cbn [filter]. assert (Em : is_meta p = keq (fst p) (bs "metadata")) by reflexivity. rewrite Em. destruct (keq (fst p) (bs "metadata")).
  - destruct (lookup to (fst p)); rewrite filter_app; cbn [filter]; rewrite Em, <- app_assoc; reflexivity.
  - destruct (lookup to (fst p)); [reflexivity|]. rewrite filter_app. cbn [filter]. rewrite Em, app_nil_r. reflexivity.
Qed.
(* what is added: each key once, no key of the list before *)
Lemma merge_split from : forall to, exists new, merge_new to from = to ++ new /\
  (forall k v, In (k, v) new -> k <> bs "metadata" -> lookup to k = None /\ lookup from k = Some v) /\ NoDup (map fst (filter (fun p => negb (is_meta p)) new)).
Proof.
  induction from as [|(a, v) from IH] using rev_ind; intro to.
  - exists []. split; [symmetry; apply app_nil_r|]. split; [intros k v []|constructor].
  - destruct (IH to) as (new & E & H1 & H2). unfold merge_new in *. rewrite fold_left_app, E. cbn [fold_left]. unfold merge1. cbn [fst]. rewrite lookup_app.
    assert (B : forall k w, In (k, w) new -> k <> bs "metadata" -> lookup to k = None /\ lookup (from ++ [(a, v)]) k = Some w). { intros k w Hi Hk. destruct (H1 k w Hi Hk) as (X & Y). split; [exact X|]. rewrite lookup_app, Y. reflexivity. }
    destruct (keq a (bs "metadata")) eqn:Em.
    + assert (G : exists new0, (to ++ new) ++ [(a, v)] = to ++ new0 /\ (forall k w, In (k, w) new0 -> k <> bs "metadata" -> lookup to k = None /\ lookup (from ++ [(a, v)]) k = Some w) /\ NoDup (map fst (filter (fun p => negb (is_meta p)) new0))).
      { exists (new ++ [(a, v)]). split; [rewrite app_assoc; reflexivity|]. split.
        - intros k w Hi Hk. apply in_app_or in Hi. destruct Hi as [Hi|[D|[]]]; [auto|]. injection D as <- <-. apply keq_spec in Em. contradiction.
        - rewrite filter_app. cbn [filter]. unfold is_meta at 2. cbn [fst]. rewrite Em. cbn [negb]. rewrite app_nil_r. exact H2. }
      destruct (lookup to a); [exact G|]. destruct (lookup new a); exact G.
    + apply keq_false in Em. destruct (lookup to a) as [w|] eqn:E1; [exists new; auto|]. destruct (lookup new a) as [w|] eqn:E2; [exists new; auto|]. exists (new ++ [(a, v)]). split; [rewrite app_assoc; reflexivity|]. split.
      * intros k w Hi Hk. apply in_app_or in Hi. destruct Hi as [Hi|[D|[]]]; [auto|]. injection D as <- <-. split; [exact E1|]. rewrite lookup_app. cbn [lookup]. rewrite keq_refl.
        assert (L := merge_lookup from to a Hk). unfold merge_new in L. rewrite E, lookup_app, E1, E2 in L. rewrite <- L. reflexivity.
      * rewrite filter_app. cbn [filter]. unfold is_meta at 2. cbn [fst]. rewrite (proj2 (keq_false a (bs "metadata")) Em). cbn [negb]. rewrite map_app. apply nodup_snoc; [exact H2|]. cbn [fst]. intro D. apply in_map_iff in D. destruct D as ((x, w) & Dx & D). cbn [fst] in Dx. subst x. apply filter_In in D. apply lookup_none in E2. apply E2. apply in_map_iff. exists (a, w). split; [reflexivity|apply D].
Qed.
