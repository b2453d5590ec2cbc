(* C80: services *)
From Coq Require Import Strings.Ascii Strings.String Sorted.
From Verif Require Import Base TextModel ParseModel ParseSpec ParseProofs ParseProps RConfigModel RConfigSpec RConfigProofs RConfigProps JsonModel JsonOutSpec JsonProofs2 ServModel ServSpec.
Open Scope N_scope.
Open Scope list_scope.

(* ---- the text of the list ---- *)
Definition SEP : list N := [44; 58].
Lemma sep_is c : c = 44 \/ c = 58 -> sep_ok SEP c.
Proof. intros [-> | ->]; (split; [cbn; auto|split; [reflexivity|split; discriminate]]). Qed.
Lemma stops_spaces b : spaces b -> stops SEP b.
Proof. intro H. destruct b as [|x r]; [exact Logic.I|]. apply Forall_cons_iff in H as (Hx & _). split; [left; exact Hx|exact (isspace_not x Hx)]. Qed.
Lemma read_item_more a i b w c t p : spaces a -> spaces b -> item i w -> c = 44 \/ c = 58 ->
  exists q q2, read_word SEP (mks p (a ++ i ++ b ++ c :: t) true) = (w, q) /\ read_char q = (c, mks q2 t true).
Proof.
  intros Ha Hb Hi Hc. assert (Hk := sep_is c Hc). inversion Hi; subst.
  - cbn [app]. exists (mks (rev (a ++ b) ++ p) (c :: t) true), (c :: rev (a ++ b) ++ p). split.
    + unfold read_word. assert (Hab : spaces (a ++ b)) by (apply Forall_app; auto). rewrite app_assoc, (read_char_ok (a ++ b) p c t Hab); [|apply Hk]. cbn [s_good s_unget s_prev].
      assert (St : stops SEP (c :: t)) by (split; [right; apply Hk|split; apply Hk]). rewrite (loop_stop SEP _ (c :: t) [] _ St). reflexivity.
    + apply (read_char_ok [] _ c t); [constructor|apply Hk].
  - do 2 eexists. split; [apply read_word_ok; auto; apply stops_sep; auto|]. rewrite alive_app. apply read_char_ok; auto. apply Hk.
Qed.
Lemma read_item_last a i b w p : spaces a -> spaces b -> item i w ->
  exists q q2 x, read_word SEP (mks p (a ++ i ++ b) true) = (w, q) /\ read_char q = (x, q2) /\ s_good q2 = false.
Proof.
  intros Ha Hb Hi. inversion Hi; subst.
  - cbn [app]. assert (Hab : spaces (a ++ b)) by (apply Forall_app; auto). unfold read_word. rewrite (read_char_end (a ++ b) p Hab). cbn. do 3 eexists. split; [reflexivity|]. split; reflexivity.
  - rewrite (read_word_ok SEP a i w p b) by (auto; apply stops_spaces; auto). destruct b as [|x b]; cbn [alive]; do 3 eexists; (split; [reflexivity|]); [split; reflexivity|]. rewrite read_char_end by auto. split; reflexivity.
Qed.
Lemma list_loop_text t l : list_text t l -> forall p ret n, (length t < n)%nat -> stringlist_loop SEP n (mks p t true) ret = rev ret ++ filter nonempty l.
Proof.
  induction 1 as [a i b w Ha Hb Hi|a i b w c t l Ha Hb Hi Hc H IH]; intros p ret n Hn; (destruct n as [|n]; [lia|]); cbn [stringlist_loop].
  - destruct (read_item_last a i b w p Ha Hb Hi) as (q & q2 & x & -> & -> & ->). cbn [andb]. rewrite filter_rev_cons, rev_app_distr. f_equal. cbn [filter]. destruct (nonempty w); reflexivity.
  - destruct (read_item_more a i b w c t p Ha Hb Hi Hc) as (q & q2 & -> & ->). cbn [s_good andb]. rewrite (proj2 (is_one_of_spec c SEP)) by (apply sep_is; auto).
    rewrite IH by (rewrite !app_length in Hn; cbn [length] in Hn; lia). rewrite filter_rev_cons, rev_app_distr, <- app_assoc. f_equal. cbn [filter]. destruct (nonempty w); reflexivity.
Qed.
(* the list of services: the words between commas and colons, empty ones dropped *)
Theorem C80_list t l : list_text t l -> to_stringlist [44; 58] t = filter nonempty l.
Proof. intro H. unfold to_stringlist, s_open. rewrite (list_loop_text t l H); [reflexivity|lia]. Qed.

(* ---- the registry ---- *)
Lemma name_named s n : named s n <-> n = name_from_spec s.
Proof.
  unfold name_from_spec. destruct (rec_dict_assign s) as (l, ok) eqn:E. split.
  - intro H. inversion H as [s' l' n' E' Hn|s' Hn]; subst.
    + rewrite E in E'. injection E' as -> ->. rewrite Hn. reflexivity.
    + destruct ok; auto. destruct (ParseModel.dict_lookup l (bs "name")) as [x|] eqn:D; auto. destruct (Hn l x E D).
  - intros ->. destruct ok.
    + destruct (ParseModel.dict_lookup l (bs "name")) as [x|] eqn:D; [eapply nm_dict; eauto|]. apply nm_text. intros l' n E'. rewrite E in E'. injection E' as <-. congruence.
    + apply nm_text. intros l' n E'. rewrite E in E'. discriminate E'.
Qed.
Definition entry_of (x : bytes * N) : bytes * (bytes * N) := (name_from_spec (fst x), x).
Lemma offers_fun l a : offers l a -> forall m, add_services m l = rev (map entry_of a) ++ m.
Proof.
  induction 1 as [|s f r [-> | ->]|s f r l H IH]; intro m; auto; [destruct s; reflexivity|]. cbn [add_services map rev]. rewrite IH, <- app_assoc. reflexivity.
Qed.
Lemma offers_total l : exists a, offers l a.
Proof.
  induction l as [|[s f] r (a & IH)]; [eexists; constructor|]. destruct s as [s|]; [|eexists; apply of_end; auto]. destruct f as [f|]; [|eexists; apply of_end; auto]. eexists. apply of_more. exact IH.
Qed.
Lemma offers_det l a b : offers l a -> offers l b -> a = b.
Proof.
  intro H. revert b. induction H as [|s f r Hn|s f r l H IH]; intros b Hb; inversion Hb as [|s1 f1 r1 Hd|s1 f1 r1 l1 H1]; subst; auto; try (destruct Hn; congruence); try (destruct Hd; congruence). f_equal. auto.
Qed.
Definition registry (hist : list (list cservice)) : smap := fold_left add_services hist [].
Lemma offered_reg hist all : offered hist all -> registry hist = rev (map entry_of all).
Proof.
  intros (ls & H & ->). unfold registry. assert (G : forall m, fold_left add_services hist m = rev (map entry_of (concat ls)) ++ m); [|rewrite G, app_nil_r; auto].
  induction H as [|l a hist ls Ho H IH]; intro m; [reflexivity|]. cbn [fold_left concat]. rewrite IH, (offers_fun l a Ho), map_app, rev_app_distr, <- app_assoc. reflexivity.
Qed.
Lemma offered_total hist : exists all, offered hist all.
Proof.
  assert (exists ls, Forall2 offers hist ls) as (ls & H); [|exists (concat ls), ls; auto]. induction hist as [|l hist (ls & IH)]; [exists []; constructor|]. destruct (offers_total l) as (a & Ha). exists (a :: ls). constructor; auto.
Qed.
Lemma offered_det hist a b : offered hist a -> offered hist b -> a = b.
Proof.
  intros (l & H & ->) (l' & H' & ->). f_equal. revert l' H'. induction H as [|x y hist l Hx H IH]; intros l' H'; inversion H'; subst; auto. f_equal; auto. eapply offers_det; eauto.
Qed.
Lemma lookup_last n all : lookup (rev (map entry_of all)) n = None /\ (forall x, In x all -> ~ named (fst x) n) \/
  exists a x b, all = a ++ x :: b /\ named (fst x) n /\ (forall y, In y b -> ~ named (fst y) n) /\ lookup (rev (map entry_of all)) n = Some x.
Proof.
  induction all as [|x all IH] using rev_ind; [left; split; auto; intros x []|]. rewrite map_app, rev_app_distr. cbn [map rev app]. unfold entry_of at 1. rewrite lookup_cons.
  destruct (beq (name_from_spec (fst x)) n) eqn:E.
  - right. exists all, x, []. split; auto. split; [apply name_named; symmetry; apply beq_eq; auto|]. split; [intros y []|]. unfold entry_of at 1. rewrite lookup_cons, E. reflexivity.
  - assert (Nx : ~ named (fst x) n). { intro H. apply name_named in H. subst n. rewrite beq_refl in E. discriminate E. }
    destruct IH as [(H1 & H2)|(a & y & b & -> & H1 & H2 & H3)].
    + left. split; auto. intros y Hy. apply in_app_iff in Hy as [Hy|[<-|[]]]; auto.
    + right. exists a, y, (b ++ [x]). split; [rewrite <- app_assoc; reflexivity|]. split; auto. split; [intros z Hz; apply in_app_iff in Hz as [Hz|[<-|[]]]; auto|]. unfold entry_of at 1. rewrite lookup_cons, E. exact H3.
Qed.
(* the registry has the latest spec of every name *)
Theorem C80_latest hist n spec f : lookup (registry hist) n = Some (spec, f) <-> provides hist n spec f.
Proof.
  destruct (offered_total hist) as (all & Ha). rewrite (offered_reg hist all Ha). split.
  - intro H. destruct (lookup_last n all) as [(H1 & _)|(a & x & b & E & H1 & H2 & H3)]; [congruence|]. rewrite H3 in H. injection H as ->. subst all. exists a, b. auto.
  - intros (a & b & Ho & Hn & Hb). rewrite (offered_det hist all (a ++ (spec, f) :: b) Ha Ho). clear -Hn Hb. induction b as [|x b IH] using rev_ind.
    + rewrite map_app, rev_app_distr. cbn [map rev app]. unfold entry_of at 1. rewrite lookup_cons. cbn [fst]. apply name_named in Hn. subst n. rewrite beq_refl. reflexivity.
    + replace (a ++ (spec, f) :: b ++ [x]) with ((a ++ (spec, f) :: b) ++ [x]) by (rewrite <- app_assoc; reflexivity). rewrite map_app, rev_app_distr. cbn [map rev app]. unfold entry_of at 1. rewrite lookup_cons.
      destruct (beq (name_from_spec (fst x)) n) eqn:E; [|apply IH; intros; apply Hb; apply in_app_iff; auto]. exfalso. apply (Hb x); [apply in_app_iff; right; left; auto|]. apply name_named. symmetry. apply beq_eq. exact E.
Qed.
(* the available services: every name of an offered spec once, in the order of the bytes *)
Theorem C80_available hist : StronglySorted before (available (registry hist)) /\
  forall n, In n (available (registry hist)) <-> exists all x, offered hist all /\ In x all /\ named (fst x) n.
Proof.
  unfold available. destruct (kmap_ok (registry hist)) as (H1 & H2). split.
  - clear H2. unfold srt in H1. induction H1 as [|x l H IH Hf]; cbn [map]; constructor; auto. apply Forall_map. exact Hf.
  - intro n. assert (L : forall (m : smap) k, look m k = lookup m k).
    { intros m k. induction m as [|(k', v) m IH]; [reflexivity|]. rewrite lookup_cons. cbn [look]. rewrite IH. unfold beq. destruct (list_eq_dec N.eq_dec k' k) as [->|Ne]; [rewrite JsonProofs2.beqb_refl; auto|]. destruct (NamesModel.beqb k' k) eqn:E; auto. apply NamesProps.beqb_eq in E. congruence. }
    assert (I : forall (m : smap), In n (map fst m) <-> look m n <> None).
    { intro m. induction m as [|(k', v) m IH]; cbn [map In fst look]; [split; [intros []|intro H; destruct (H eq_refl)]|]. destruct (NamesModel.beqb k' n) eqn:E.
      - apply NamesProps.beqb_eq in E. subst. split; [discriminate|auto].
      - rewrite <- IH. split; [intros [->|H]; auto; rewrite JsonProofs2.beqb_refl in E; discriminate E|auto]. }
    rewrite I, H2, L. destruct (offered_total hist) as (all & Ha). rewrite (offered_reg hist all Ha). destruct (lookup_last n all) as [(Q1 & Q2)|(a & x & b & E & Q1 & Q2 & Q3)].
    + rewrite Q1. split; [intro H; destruct (H eq_refl)|]. intros (all' & x & Ho & Hx & Hn). rewrite (offered_det hist all all' Ha Ho) in Q2. destruct (Q2 x Hx Hn).
    + rewrite Q3. split; [|discriminate]. intros _. exists all, x. split; auto. split; auto. rewrite E. apply in_app_iff. right; left; auto.
Qed.
