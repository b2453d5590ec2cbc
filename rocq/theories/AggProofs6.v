(* flush, and the main correspondence between output records and groups *)
From Verif Require Import Base VariantModel VariantSpec NamesModel NamesProps TextModel TreeModel TreeProofs CaliFileModel CaliFileProofs2 CaliFileProofs3 CaliFileProofs4 FloatModel ArithSpec AggModel AggSpec AggProofs AggProofs2 AggProofs3 AggProofs4 AggProofs5.
From Coq Require Import Permutation Sorted.
Open Scope N_scope.

(* ---------- results ---------- *)
Lemma res_attr_ok d x name ty prop a d1 : res_attr d x name ty prop = (a, d1) -> dext d d1 /\ (wf d -> size_ok d1 -> grow d d1 /\ wf d1 /\ get_attr d1 name = Some a).
Proof.
  unfold res_attr, make_attr. cbn [ka_name ka_type ka_prop]. intro E. split.
  - replace d1 with (snd (a, d1)) by reflexivity. rewrite <- E. apply create_attribute_ext.
  - intros Hw Hs. match type of E with create_attribute _ _ ?t _ = _ => assert (H := create_attribute_grow d name t prop Hw) end. rewrite E in H. cbn [fst snd] in H. auto.
Qed.
Lemma named_grow d d' rs es : grow d d' -> named d rs es -> named d' rs es.
Proof. intro G. unfold named. apply Forall2_imp. intros r e (a & H & ->). exists a. split; auto. apply (gr_keep _ _ G). auto. Qed.
(* a sequence of result attributes *)
Inductive mk_named : mdb -> list (bytes * value) -> list entry -> mdb -> Prop :=
| mn_nil d : mk_named d [] [] d
| mn_cons d x name ty prop a d1 v rs es d2 : res_attr d x name ty prop = (a, d1) -> mk_named d1 rs es d2 -> mk_named d ((name, v) :: rs) (EImm a v :: es) d2.
Lemma mk_named_app d a ea d1 b eb d2 : mk_named d a ea d1 -> mk_named d1 b eb d2 -> mk_named d (a ++ b) (ea ++ eb) d2.
Proof. induction 1; intro H2; cbn [app]; auto. econstructor; eauto. Qed.
Lemma mk_named_ext d rs es d' : mk_named d rs es d' -> dext d d'.
Proof. induction 1 as [|d x name ty prop a d1 v rs es d2 E _ IH]; [apply dext_refl|]. apply res_attr_ok in E as (E & _). eapply dext_trans; eauto. Qed.
Lemma mk_named_ok d rs es d' : mk_named d rs es d' -> wf d -> size_ok d' -> grow d d' /\ wf d' /\ named d' rs es.
Proof.
  induction 1 as [|d x name ty prop a d1 v rs es d2 E M IH]; intros Hw Hs; [split; [apply grow_refl|split; auto; constructor]|].
  apply res_attr_ok in E as (_ & E). destruct E as (G & W & A); auto; [eapply size_dext; [eapply mk_named_ext; eauto|auto]|]. destruct (IH W Hs) as (G2 & W2 & N2). split; [eapply grow_trans; eauto|]. split; auto.
  constructor; auto. exists a. split; auto. apply (gr_keep _ _ G2). exact A.
Qed.
Definition nres (d : mdb) (rs : list (bytes * value)) (es : list entry) (d1 : mdb) : Prop := dext d d1 /\ (wf d -> size_ok d1 -> grow d d1 /\ wf d1 /\ named d1 rs es).
Lemma mk_nres d rs es d1 : mk_named d rs es d1 -> nres d rs es d1.
Proof. intro H. split; [eapply mk_named_ext; eauto|]. apply mk_named_ok. exact H. Qed.
Lemma nres_var d p1 p2 p3 p4 e1 e2 e3 e4 d1 : nres d [p1; p2; p3; p4] [e1; e2; e3; e4] d1 -> nres d [p1; p3; p4; p2] [e1; e3; e4; e2] d1.
Proof.
  intros (H1 & H2). split; auto. intros Hw Hs. destruct (H2 Hw Hs) as (G & W & N). split; auto. split; auto. unfold named in *.
  inversion N as [|? ? ? ? X1 N1]; subst. inversion N1 as [|? ? ? ? X2 N2]; subst. inversion N2 as [|? ? ? ? X3 N3]; subst. inversion N3 as [|? ? ? ? X4 N4]; subst. auto.
Qed.
Ltac one_res := match goal with |- context [let (_, _) := res_attr ?d ?x ?n ?t ?p in _] => let a := fresh "a" in let d1 := fresh "d" in let E := fresh "E" in destruct (res_attr d x n t p) as (a, d1) eqn:E end.
Ltac mk_res := match goal with |- mk_named _ [] [] _ => apply mn_nil | |- mk_named _ (_ :: _) _ _ => eapply mn_cons; [eassumption|mk_res] end.
Lemma append_result_named c t d k es d1 : append_result c t d k = Some (es, d1) -> exists rs, kresult c t k = Some rs /\ nres d rs es d1.
Proof.
  destruct c; cbn [append_result kresult]; unfold opt_res; intro H.
  - destruct (0 <? k_n k); [revert H; one_res; intro H|]; injection H as <- <-; eexists; (split; [reflexivity|apply mk_nres; mk_res]).
  - destruct (0 <? k_n k); [revert H; do 2 one_res; intro H|]; injection H as <- <-; eexists; (split; [reflexivity|apply mk_nres; mk_res]).
  - destruct (nonempty (k_a k)); [revert H; one_res; intro H|]; injection H as <- <-; eexists; (split; [reflexivity|apply mk_nres; mk_res]).
  - destruct (nonempty (k_a k)); [revert H; do 2 one_res; intro H|]; injection H as <- <-; eexists; (split; [reflexivity|apply mk_nres; mk_res]).
  - destruct (nonempty (k_a k)); [revert H; one_res; intro H|]; injection H as <- <-; eexists; (split; [reflexivity|apply mk_nres; mk_res]).
  - destruct (nonempty (k_a k)); [revert H; one_res; intro H|]; injection H as <- <-; eexists; (split; [reflexivity|apply mk_nres; mk_res]).
  - destruct (0 <? k_n k); [|injection H as <- <-; eexists; (split; [reflexivity|apply mk_nres; mk_res])].
    destruct ((k_n k mod 4294967296 =? 0) && negb (is_double (k_a k)) && nonempty (k_a k)); [discriminate|]. revert H; do 3 one_res; intro H; injection H as <- <-; eexists; (split; [reflexivity|apply mk_nres; mk_res]).
  - destruct (nonempty (k_a k)).
    + revert H. one_res. destruct (nonempty (k_b k)); cbn [andb]; [do 2 one_res|]; intro H; injection H as <- <-; eexists; (split; [reflexivity|]); cbn [app]; apply mk_nres; mk_res.
    + destruct (nonempty (k_b k)); cbn [andb]; [revert H; one_res; intro H|]; injection H as <- <-; eexists; (split; [reflexivity|]); cbn [app]; apply mk_nres; mk_res.
  - destruct (nonempty (k_b k) && dltb 0 (v_f64 t)); [revert H; do 2 one_res; intro H|]; injection H as <- <-; eexists; (split; [reflexivity|apply mk_nres; mk_res]).
  - destruct (nonempty (k_a k)); [revert H; one_res; intro H|]; injection H as <- <-; eexists; (split; [reflexivity|apply mk_nres; mk_res]).
  - destruct (0 <? k_n k); [revert H; do 4 one_res; intro H; injection H as <- <-; eexists; (split; [cbn zeta; reflexivity|]); apply nres_var; apply mk_nres; mk_res|].
    injection H as <- <-; eexists; (split; [reflexivity|apply mk_nres; mk_res]).
Qed.
(* results of all kernels of one entry *)
Inductive mk_all : mdb -> list (kcfg * value * kst) -> list (list entry) -> mdb -> Prop :=
| ma_nil d : mk_all d [] [] d
| ma_cons d c t k rs es d1 r ess d2 : kresult c t k = Some rs -> nres d rs es d1 -> mk_all d1 r ess d2 -> mk_all d ((c, t, k) :: r) (es :: ess) d2.
Lemma append_results_all l : forall d es d1, append_results l d = Some (es, d1) -> exists ess, es = concat ess /\ mk_all d l ess d1.
Proof.
  induction l as [|((c, t), k) l IH]; intros d es d1; cbn [append_results].
  - intro E. injection E as <- <-. exists []. split; auto. constructor.
  - destruct (append_result c t d k) as [(e1, d0)|] eqn:E1; [|discriminate]. destruct (append_results l d0) as [(e2, d2)|] eqn:E2; [|discriminate]. intro E. injection E as <- <-.
    destruct (append_result_named _ _ _ _ _ _ E1) as (rs & R1 & R2). destruct (IH _ _ _ E2) as (ess & -> & M). exists (e1 :: ess). split; auto. econstructor; eauto.
Qed.
Definition res_ok (d : mdb) (p : kcfg * value * kst) (es : list entry) : Prop := let '(c, t, k) := p in exists rs, kresult c t k = Some rs /\ named d rs es.
Lemma res_ok_grow d d' p es : grow d d' -> res_ok d p es -> res_ok d' p es.
Proof. intro G. destruct p as ((c, t), k). intros (rs & H & N). exists rs. split; auto. eapply named_grow; eauto. Qed.
Lemma mk_all_ext d l ess d' : mk_all d l ess d' -> dext d d'.
Proof. induction 1 as [|d c t k rs es d1 r ess d2 K N M IH]; [apply dext_refl|]. destruct N as (N & _). eapply dext_trans; eauto. Qed.
Lemma mk_all_ok d l ess d' : mk_all d l ess d' -> wf d -> size_ok d' -> grow d d' /\ wf d' /\ Forall2 (res_ok d') l ess.
Proof.
  induction 1 as [|d c t k rs es d1 r ess d2 K N M IH]; intros Hw Hs; [split; [apply grow_refl|split; auto]|].
  destruct (proj2 N Hw) as (G & W & A); [eapply size_dext; [eapply mk_all_ext; eauto|auto]|]. destruct (IH W Hs) as (G2 & W2 & A2). split; [eapply grow_trans; eauto|]. split; auto.
  constructor; auto. cbn. exists rs. split; auto. eapply named_grow; eauto.
Qed.
(* all entries *)
Definition ents_of (g : agg) : list aentry := flat_map (fun o => match o with Some e => [e] | None => [] end) (g_ents g).
Definition out_ok (d : mdb) (cs : list kcfg) (tot : list value) (e : aentry) (o : list entry) : Prop :=
  exists ess, o = ae_key e ++ concat ess /\ Forall2 (res_ok d) (combine (combine cs tot) (ae_ker e)) ess.
Lemma flush_ext cs tot l : forall d out d', flush_ents cs tot l d = Some (out, d') -> dext d d'.
Proof.
  induction l as [|[e|] l IH]; intros d out d'; cbn [flush_ents].
  - intro E. injection E as _ <-. apply dext_refl.
  - destruct (append_results _ d) as [(es, d1)|] eqn:E1; [|discriminate]. destruct (flush_ents cs tot l d1) as [(o, d2)|] eqn:E2; [|discriminate]. intro E. injection E as _ <-.
    apply append_results_all in E1 as (ess & _ & M). apply mk_all_ext in M. eapply dext_trans; eauto.
  - apply IH.
Qed.
Lemma flush_ok cs tot l : forall d out d', flush_ents cs tot l d = Some (out, d') -> wf d -> size_ok d' -> grow d d' /\ wf d' /\ Forall2 (out_ok d' cs tot) (flat_map (fun o => match o with Some e => [e] | None => [] end) l) out.
Proof.
  induction l as [|[e|] l IH]; intros d out d'; cbn [flush_ents flat_map app].
  - intro E. injection E as <- <-. intros Hw Hs. split; [apply grow_refl|]. split; auto.
  - destruct (append_results _ d) as [(es, d1)|] eqn:E1; [|discriminate]. destruct (flush_ents cs tot l d1) as [(o, d2)|] eqn:E2; [|discriminate]. intro E. injection E as <- <-. intros Hw Hs.
    apply append_results_all in E1 as (ess & -> & M). destruct (mk_all_ok _ _ _ _ M Hw) as (G & W & A); [eapply size_dext; [eapply flush_ext; eauto|auto]|].
    destruct (IH _ _ _ E2 W Hs) as (G2 & W2 & A2). split; [eapply grow_trans; eauto|]. split; auto. constructor; auto. exists ess. split; auto. eapply Forall2_imp; [|exact A]. intros p x Hx. eapply res_ok_grow; eauto.
  - apply IH.
Qed.
(* ---------- totals ---------- *)
Lemma upd_tot_same g j f : g_tot (upd_tot g j f) = match nth_error (g_tot g) j with Some t => upd_nth (g_tot g) j (f t) | None => g_tot g end.
Proof. unfold upd_tot. destruct (nth_error (g_tot g) j); reflexivity. Qed.
Lemma get_entry_tot cs g K : g_tot (snd (get_entry cs g K)) = g_tot g.
Proof. unfold get_entry. destruct (chain _ _ _ _); reflexivity. Qed.
Lemma upd_kernel_tot g i j f : g_tot (upd_kernel g i j f) = g_tot g.
Proof. unfold upd_kernel. destruct (ent g i) as [e|]; auto. destruct (nth_error (ae_ker e) j); reflexivity. Qed.
Lemma parents_tot cs anc : forall g j c ms, g_tot (parents cs g anc j c ms) = g_tot g.
Proof. induction anc as [|a r IH]; intros; cbn [parents]; auto. assert (H := get_entry_tot cs g a). destruct (get_entry cs g a). rewrite IH, upd_kernel_tot. exact H. Qed.
Lemma kernels_tot cs idx anc l : forall g j i, nth_error (g_tot (kernels cs g idx anc j l)) i =
  match nth_error (g_tot g) i with
  | Some t => Some (if (i <? j)%nat then t else match nth_error l (i - j) with Some (c, ms) => ktot c ms t | None => t end)
  | None => None
  end.
Proof.
  induction l as [|(c, ms) l IH]; intros g j i; cbn [kernels].
  - destruct (nth_error (g_tot g) i); auto. destruct (i <? j)%nat; auto. destruct (i - j)%nat; reflexivity.
  - rewrite IH. assert (T : g_tot (if is_incl c && matched ms then parents cs (upd_tot (upd_kernel g idx j (kupd c true ms)) j (ktot c ms)) anc j c ms else upd_tot (upd_kernel g idx j (kupd c true ms)) j (ktot c ms)) = match nth_error (g_tot g) j with Some t => upd_nth (g_tot g) j (ktot c ms t) | None => g_tot g end).
    { destruct (is_incl c && matched ms); rewrite ?parents_tot, upd_tot_same, upd_kernel_tot; reflexivity. }
    rewrite T. clear T. destruct (nth_error (g_tot g) j) as [t|] eqn:Ej.
    + destruct (Nat.eq_dec i j) as [->|Hn].
      * rewrite upd_nth_same by (apply nth_error_Some; congruence). rewrite Ej. rewrite (proj2 (Nat.ltb_lt j (S j))) by lia. rewrite Nat.ltb_irrefl, Nat.sub_diag. reflexivity.
      * rewrite upd_nth_other by auto. destruct (nth_error (g_tot g) i); auto. f_equal. destruct (Nat.ltb_spec i (S j)), (Nat.ltb_spec i j); try lia; auto. replace (i - j)%nat with (S (i - S j)) by lia. reflexivity.
    + destruct (nth_error (g_tot g) i) eqn:Ei; auto. f_equal. assert (i <> j) by congruence. destruct (Nat.ltb_spec i (S j)), (Nat.ltb_spec i j); try lia; auto. replace (i - j)%nat with (S (i - S j)) by lia. reflexivity.
Qed.
Lemma run_tot cs ss : forall g j c, nth_error cs j = Some c -> Forall (fun s => length (s_in s) = length cs) ss ->
  nth_error (g_tot (fold_left (run_step cs) ss g)) j = match nth_error (g_tot g) j with Some t => Some (fold_left (fun t s => ktot c (nth j (s_in s) []) t) ss t) | None => None end.
Proof.
  induction ss as [|s ss IH]; intros g j c Hc F; cbn [fold_left]; [destruct (nth_error (g_tot g) j); auto|]. apply Forall_cons_iff in F as (Hs & F).
  rewrite (IH _ j c Hc F). unfold run_step. assert (H := get_entry_tot cs g (s_key s)). destruct (get_entry cs g (s_key s)) as (idx, g1). cbn [snd] in H. rewrite kernels_tot, H. destruct (nth_error (g_tot g) j) as [t|]; auto. cbn [Nat.ltb Nat.leb]. rewrite Nat.sub_0_r.
  assert (E : nth_error (combine cs (s_in s)) j = Some (c, nth j (s_in s) [])).
  { clear - Hc Hs. revert j Hc Hs. generalize (s_in s). induction cs as [|c0 r IHc]; intros [|m l] [|j] Hc Hl; cbn in *; try discriminate; [injection Hc as ->; auto|]. apply IHc; auto. }
  rewrite E. reflexivity.
Qed.

Lemma F2_r {A B} (P : A -> B -> Prop) l m : Forall2 P l m -> forall y, In y m -> exists x, In x l /\ P x y.
Proof. induction 1 as [|x y l m H _ IH]; intros z Hz; [destruct Hz|]. destruct Hz as [<-|Hz]; [exists x; split; [left; auto|auto]|]. destruct (IH z Hz) as (w & H1 & H2). exists w. split; [right; auto|auto]. Qed.
Lemma F2_l {A B} (P : A -> B -> Prop) l m : Forall2 P l m -> forall x, In x l -> exists y, In y m /\ P x y.
Proof. induction 1 as [|x y l m H _ IH]; intros z Hz; [destruct Hz|]. destruct Hz as [<-|Hz]; [exists y; split; [left; auto|auto]|]. destruct (IH z Hz) as (w & H1 & H2). exists w. split; [right; auto|auto]. Qed.
Lemma F2_len {A B} (P : A -> B -> Prop) l m : Forall2 P l m -> length l = length m.
Proof. induction 1; cbn; auto. Qed.
(* ---------- groups ---------- *)
Definition gkey_eq_dec (a b : gkey) : {a = b} + {a <> b}.
Proof. decide equality; apply list_eq_dec; intros x y; decide equality; try apply value_eq_dec; apply N.eq_dec. Defined.
Lemma encl_irrefl K : ~ encloses K K.
Proof. intros (_ & _ & _ & x & l & E). apply (f_equal (@length _)) in E. rewrite app_length in E. cbn in E. lia. Qed.
Lemma contrib1_collect d q (Hd : db_ok d) key K anc c ms As K1 key1 :
  wfkey d q K -> wfkey d q K1 -> krep d key K -> krep d key1 K1 -> Forall2 (krep d) anc As -> NoDup As -> (forall A, In A As <-> encloses A K1) ->
  (K = K1 /\ contrib1 key1 anc c ms key = [(true, ms)]) \/
  (encloses K K1 /\ is_incl c = true /\ ms <> [] /\ contrib1 key1 anc c ms key = [(false, ms)]) \/
  (K <> K1 /\ ~ (encloses K K1 /\ is_incl c = true /\ ms <> []) /\ contrib1 key1 anc c ms key = []).
Proof.
  intros W W1 R R1 FA ND HA. unfold contrib1.
  assert (WA : Forall (wfkey d q) As) by (apply Forall_forall; intros A Hin; eapply wfkey_encl; [exact W1|]; apply HA; auto).
  assert (Keq : forall k A, krep d k A -> wfkey d q A -> keqb k key = true <-> A = K).
  { intros k A Hk HwA. rewrite keqb_eq. split; [intros ->; eapply krep_inj; eauto|intros ->; eapply krep_fun; eauto]. }
  assert (Fil : filter (fun a => keqb a key) anc = if in_dec gkey_eq_dec K As then [key] else []).
  { clear HA. revert ND WA. induction FA as [|a A anc As Ha FA IH]; intros ND WA; [reflexivity|]. apply Forall_cons_iff in WA as (WA0 & WA). inversion ND as [|? ? Hnin ND']; subst. cbn [filter]. rewrite (IH ND' WA).
    destruct (in_dec gkey_eq_dec K As) as [Hin|Hin], (in_dec gkey_eq_dec K (A :: As)) as [Hin'|Hin'].
    - destruct (keqb a key) eqn:E; [|reflexivity]. apply (Keq a A Ha WA0) in E. subst A. contradiction.
    - exfalso. apply Hin'. right. auto.
    - destruct Hin' as [->|Hin']; [|contradiction]. assert (E := proj2 (Keq a K Ha WA0) eq_refl). rewrite E. apply keqb_eq in E. subst a. reflexivity.
    - destruct (keqb a key) eqn:E; [|reflexivity]. apply (Keq a A Ha WA0) in E. subst A. exfalso. apply Hin'. left. auto. }
  rewrite Fil. destruct (keqb key1 key) eqn:E.
  - apply (Keq key1 K1 R1 W1) in E. subst K1. left. split; auto. destruct (in_dec gkey_eq_dec K As) as [Hin|Hin]; [exfalso; apply HA in Hin; exact (encl_irrefl K Hin)|]. destruct (is_incl c && matched ms); reflexivity.
  - right. assert (HK : K <> K1) by (intros <-; rewrite (proj2 (Keq key1 K R1 W1) eq_refl) in E; discriminate).
    destruct (in_dec gkey_eq_dec K As) as [Hin|Hin].
    + apply HA in Hin. destruct (is_incl c) eqn:Ei; cbn [andb].
      * destruct ms as [|m ms]; cbn [matched]; [right; split; auto; split; auto; intros (_ & _ & H); auto|left; split; auto; split; auto; split; [discriminate|reflexivity]].
      * right. split; auto. split; auto. intros (_ & H & _). discriminate.
    + right. split; auto. split; [|destruct (is_incl c && matched ms); reflexivity]. intros (H & _). apply Hin. apply HA. auto.
Qed.
Lemma nth_map' {A B} (f : A -> B) l j d x : nth_error l j = Some x -> nth j (map f l) d = f x.
Proof. revert j. induction l; intros [|j]; cbn; try discriminate; intro H; [injection H as ->; auto|auto]. Qed.
Lemma step_ms_ok cs s j c (F : kcfg -> list (nat * value)) : s_in s = map F cs -> nth_error cs j = Some c -> step_ms cs s j = Some (c, F c).
Proof. intros E Hc. unfold step_ms. rewrite E. revert j Hc. clear. induction cs as [|c0 r IH]; intros [|j] Hc; cbn in *; try discriminate; [injection Hc as ->; auto|auto]. Qed.
Lemma contribs_collect d q key K c j recs ss : wf d -> wfkey d q K -> krep d key K -> nth_error (q_ker q) j = Some c -> Forall2 (step_for d q) recs ss ->
  collect d q c K recs (contribs (q_ker q) ss j key).
Proof.
  intros Hw W R Hc F2. unfold contribs. induction F2 as [|r s recs ss Hr F2 IH]; cbn [flat_map]; [constructor|].
  destruct Hr as (K1 & G1 & W1 & R1 & (As & A1 & A2 & A3) & M). assert (Ms := step_ms_ok _ s j c _ (M d (grow_refl d)) Hc). rewrite Ms.
  destruct (contrib1_collect d q (proj1 Hw) key K (s_anc s) c (smatch c d r) As K1 (s_key s) W W1 R R1 A1 A2 A3) as [(-> & ->)|[(E & I1 & I2 & ->)|(E1 & E2 & ->)]]; cbn [app].
  - apply co_own; auto.
  - eapply co_incl; eauto.
  - eapply co_skip; eauto.
Qed.
Lemma touched_present d q recs ss K key : wf d -> wfkey d q K -> krep d key K -> Forall2 (step_for d q) recs ss -> touched (q_ker q) ss key <-> group_present d q recs K.
Proof.
  intros Hw W R F2. unfold touched, group_present. split.
  - intros (s & Hs & H). assert (exists r, In r recs /\ step_for d q r s) as (r & Hr & K1 & G1 & W1 & R1 & (As & A1 & A2 & A3) & M).
    { exact (F2_r _ _ _ F2 s Hs). }
    exists r, K1. split; auto. split; auto. destruct H as [->|(HT & HI)].
    + left. eapply krep_inj; eauto.
    + right. split.
      * assert (exists A, In A As /\ krep d key A) as (A & HA & RA).
        { destruct (F2_l _ _ _ A1 key HI) as (A & X1 & X2). eauto. }
        apply A3 in HA. assert (WA : wfkey d q A) by (eapply wfkey_encl; eauto). replace K with A; auto. eapply krep_inj; eauto.
      * unfold anc_touched in HT. apply existsb_exists in HT as ((c, ms) & Hin & HT). cbn [fst snd] in HT. apply andb_true_iff in HT as (H1 & H2). rewrite (M d (grow_refl d)) in Hin.
        assert (In c (q_ker q) /\ ms = smatch c d r) as (Hc & ->).
        { clear - Hin. induction (q_ker q) as [|c0 l IH]; cbn in Hin; [destruct Hin|]. destruct Hin as [E|Hin]; [injection E as -> ->; split; [left|]; auto|]. destruct (IH Hin). split; [right|]; auto. }
        exists c. split; auto. split; auto. intro E. rewrite E in H2. discriminate.
  - intros (r & K1 & Hr & G1 & H). assert (exists s, In s ss /\ step_for d q r s) as (s & Hs & K2 & G2 & W2 & R2 & (As & A1 & A2 & A3) & M).
    { exact (F2_l _ _ _ F2 r Hr). }
    assert (K2 = K1) by (eapply group_key_fun; eauto). subst K2. exists s. split; auto. destruct H as [->|(HE & c & Hc & Hi & Hm)].
    + left. eapply krep_fun; eauto. apply Hw.
    + right. split.
      * unfold anc_touched. apply existsb_exists. exists (c, smatch c d r). split.
        -- rewrite (M d (grow_refl d)). clear - Hc. induction (q_ker q) as [|c0 l IH]; [destruct Hc|]. cbn. destruct Hc as [->|Hc]; [left; reflexivity|right; apply IH; auto].
        -- cbn. rewrite Hi. destruct (smatch c d r); [congruence|reflexivity].
      * apply A3 in HE. destruct (F2_r _ _ _ A1 K HE) as (a & X1 & X2). rewrite (krep_fun d key a K (proj1 Hw) R X2). exact X1.
Qed.
Lemma ents_in g e : In e (ents_of g) <-> exists i, ent g i = Some e.
Proof.
  unfold ents_of, ent. rewrite in_flat_map. split.
  - intros ([x|] & Hx & He); [|destruct He]. destruct He as [->|[]]. apply In_nth_error in Hx as (i & Hi). exists i. rewrite Hi. reflexivity.
  - intros (i & H). destruct (nth_error (g_ents g) i) as [[x|]|] eqn:E; try discriminate. injection H as ->. exists (Some e). split; [eapply nth_error_In; eauto|left; auto].
Qed.
Lemma ents_nodup g : ginv g -> NoDup (map ae_key (ents_of g)).
Proof.
  intro Hg. assert (U := gi_uniq g Hg). unfold ents_of, ent in *. clear Hg. revert U. induction (g_ents g) as [|[x|] l IH]; intro U; cbn [flat_map app map]; [constructor| |].
  - constructor.
    + intro Hin. apply in_map_iff in Hin as (y & Ey & Hy). apply in_flat_map in Hy as ([z|] & Hz & Hzy); [|destruct Hzy]. destruct Hzy as [->|[]]. apply In_nth_error in Hz as (i & Hi).
      assert (E := U 0%nat (S i) x y). cbn [nth_error] in E. rewrite Hi in E. specialize (E eq_refl eq_refl (eq_sym Ey)). discriminate.
    + apply IH. intros i j e f Hi Hj Hk. assert (E := U (S i) (S j) e f). cbn [nth_error] in E. specialize (E Hi Hj Hk). lia.
  - apply IH. intros i j e f Hi Hj Hk. assert (E := U (S i) (S j) e f). cbn [nth_error] in E. specialize (E Hi Hj Hk). lia.
Qed.
(* every touched key represents a group *)
Lemma touched_rep d q recs ss key : Forall2 (step_for d q) recs ss -> touched (q_ker q) ss key -> exists K, krep d key K /\ wfkey d q K.
Proof.
  intros F2 (s & Hs & H). assert (exists r, In r recs /\ step_for d q r s) as (r & Hr & K1 & G1 & W1 & R1 & (As & A1 & A2 & A3) & M).
  { exact (F2_r _ _ _ F2 s Hs). }
  destruct H as [->|(HT & HI)]; [eauto|].
  assert (exists A, In A As /\ krep d key A) as (A & HA & RA).
  { destruct (F2_l _ _ _ A1 key HI) as (A & X1 & X2). eauto. }
  exists A. split; auto. eapply wfkey_encl; [exact W1|]. apply A3. auto.
Qed.
Lemma run_ker_len cs ss : Forall (fun s => length (s_in s) = length cs) ss -> length (g_tot (fold_left (run_step cs) ss (agg_init cs))) = length cs.
Proof.
  intro F. assert (H : forall j, nth_error (g_tot (fold_left (run_step cs) ss (agg_init cs))) j = None <-> nth_error cs j = None).
  { intro j. assert (G : forall g, nth_error (g_tot (fold_left (run_step cs) ss g)) j = None <-> nth_error (g_tot g) j = None).
    { clear. induction ss as [|s ss IH]; intro g; cbn [fold_left]; [tauto|]. rewrite IH. unfold run_step. assert (H := get_entry_tot cs g (s_key s)). destruct (get_entry cs g (s_key s)) as (idx, g1). cbn [snd] in H. rewrite kernels_tot, H. destruct (nth_error (g_tot g) j); split; auto; discriminate. }
    rewrite G. cbn [agg_init g_tot]. rewrite nth_error_map. destruct (nth_error cs j); cbn; split; auto; discriminate. }
  assert (A := proj1 (H (length (g_tot (fold_left (run_step cs) ss (agg_init cs))))) ltac:(apply nth_error_None; lia)). assert (B := proj2 (H (length cs)) ltac:(apply nth_error_None; lia)). apply nth_error_None in A, B. lia.
Qed.
Theorem groups_ok q recs d g out d' : arun q recs d g -> flush q (d, g) = Some (out, d') -> size_ok d' -> Forall (Forall (entry_ok d')) recs /\ exists G : list group, is_output d' q recs out G.
Proof.
  intros HR HF Hs. unfold flush in HF. cbn [fst snd] in HF.
  assert (Hx : dext d d') by (eapply flush_ext; eauto). assert (Hs0 : size_ok d) by (eapply size_dext; eauto).
  destruct (arun_wf q recs d g HR Hs0) as (Hw & Fr & ss & -> & F2). destruct (flush_ok _ _ _ _ _ _ HF Hw Hs) as (Gd & Hw' & FO). fold (ents_of (fold_left (run_step (q_ker q)) ss (agg_init (q_ker q)))) in FO.
  assert (F2' : Forall2 (step_for d' q) recs ss) by exact (steps_grow d d' q recs ss Hw Hw' Gd Hs Fr F2).
  assert (Lin : Forall (fun s => length (s_in s) = length (q_ker q)) ss).
  { clear - F2'. induction F2' as [|r s recs ss (K & _ & _ & _ & _ & M) _ IH]; constructor; auto. rewrite (M d' (grow_refl d')). apply map_length. }
  assert (RR := run_steps_ok (q_ker q) ss Lin). assert (TL := run_ker_len (q_ker q) ss Lin).
  assert (TT : forall j c, nth_error (q_ker q) j = Some c -> nth_error (g_tot (fold_left (run_step (q_ker q)) ss (agg_init (q_ker q)))) j = Some (total d' c recs)).
  { intros j c Hc. rewrite (run_tot (q_ker q) ss _ j c Hc Lin). cbn [agg_init g_tot]. rewrite nth_error_map, Hc. cbn [option_map]. f_equal. unfold total. clear - F2' Hc. generalize VInv. induction F2' as [|r s recs ss (K & _ & _ & _ & _ & M) _ IH]; intro t; cbn [fold_left]; auto. rewrite IH. f_equal. f_equal. rewrite (M d' (grow_refl d')). apply (nth_map' (fun c => smatch c d' r)). auto. }
  set (gg := fold_left (run_step (q_ker q)) ss (agg_init (q_ker q))) in *. destruct RR as [Hg Hk Hl Hv _].
  assert (ND := ents_nodup gg Hg).
  assert (HE : Forall (fun e => exists i, ent gg i = Some e) (ents_of gg)) by (apply Forall_forall; intros e He; apply ents_in; auto).
  assert (HP : forall key, touched (q_ker q) ss key <-> In key (map ae_key (ents_of gg))).
  { intro key. rewrite Hk, in_map_iff. split; [intros (i & e & Hi & <-); exists e; split; auto; apply ents_in; eauto|intros (e & <- & He); apply ents_in in He as (i & Hi); eauto]. }
  split; [eapply Forall_impl; [|exact Fr]; intros r Hr; exact (entries_grow d d' r Hw Hs Gd Hr)|].
  (* construct groups entry by entry *)
  assert (exists G, Forall2 (fun e x => krep d' (ae_key e) (gp_key x) /\ wfkey d' q (gp_key x) /\ gp_ents x = ae_key e /\ group_ok d' q recs x) (ents_of gg) G /\ out = map (fun x => gp_ents x ++ concat (gp_res x)) G) as (G & FG & EG).
  { assert (HT : Forall (fun e => touched (q_ker q) ss (ae_key e)) (ents_of gg)) by (apply Forall_forall; intros e He; apply HP; apply in_map; auto).
    clear ND HP HF. induction FO as [|e o es out (ess & Eo & Fe) FO IH]; [exists []; split; constructor|]. apply Forall_cons_iff in HE as ((i & Hi) & HE). apply Forall_cons_iff in HT as (He & HT). destruct (IH HE HT) as (G & FG & EG).
    destruct (touched_rep d' q recs ss (ae_key e) F2' He) as (K & RK & WK).
    exists (mkgroup K (ae_key e) ess :: G). split; [|cbn [map gp_ents gp_res]; congruence]. constructor; auto. cbn [gp_key gp_ents]. split; auto. split; auto. split; auto.
    split; cbn [gp_key gp_ents gp_res]; [apply krep_group; auto|]. split; [apply krep_spells; auto|].
    assert (Lk := Hl i e Hi).
    assert (Nth : forall j c k, nth_error (q_ker q) j = Some c -> nth_error (ae_ker e) j = Some k -> k = kfinal c (contribs (q_ker q) ss j (ae_key e))).
    { intros j c k Hc Hkk. rewrite (Hv i e j k Hi Hkk). unfold kval_of. rewrite Hc. reflexivity. }
    assert (Fin : forall j c, nth_error (q_ker q) j = Some c -> exists k es, nth_error (ae_ker e) j = Some k /\ nth_error ess j = Some es /\ res_ok d' (c, total d' c recs, k) es).
    { intros j c Hc. destruct (nth_error (ae_ker e) j) as [k|] eqn:Ek; [|apply nth_error_None in Ek; assert (X : nth_error (q_ker q) j <> None) by congruence; apply nth_error_Some in X; lia].
      assert (Ec : nth_error (combine (combine (q_ker q) (g_tot gg)) (ae_ker e)) j = Some (c, total d' c recs, k)).
      { assert (NC : forall A B (l : list A) (m : list B) j a b, nth_error l j = Some a -> nth_error m j = Some b -> nth_error (combine l m) j = Some (a, b)).
        { clear. intros A B. induction l; intros [|b m] [|j] x y; cbn; try discriminate; [congruence|apply IHl]. }
        apply NC; auto. }
      clear - Fe Ec. revert j Ec. induction Fe as [|p x ps xs Hp Fe IH]; intros [|j] Ec; cbn in *; try discriminate; [injection Ec as ->; eauto|]. destruct (IH j Ec) as (k' & es & A & B & C). eauto. }
    assert (Le : length ess = length (q_ker q)). { apply F2_len in Fe. rewrite <- Fe, !combine_length. lia. }
    assert (Col : forall j c es, nth_error (q_ker q) j = Some c -> nth_error ess j = Some es -> exists l rs, collect d' q c K recs l /\ kresult c (total d' c recs) (kfinal c l) = Some rs /\ named d' rs es).
    { intros j c es' Hc Hes. destruct (Fin j c Hc) as (k & es2 & Hkj & Hesj & (rs & R1 & R2)). rewrite Hes in Hesj. injection Hesj as <-. exists (contribs (q_ker q) ss j (ae_key e)), rs. split; [eapply contribs_collect; eauto|]. split; auto. rewrite <- (Nth j c k Hc Hkj). exact R1. }
    clear - Le Col. revert Le Col. generalize (q_ker q). intro cs. revert ess. induction cs as [|c cs IH]; intros [|es ess] Le Col; try discriminate; constructor.
    - apply (Col 0%nat c es); reflexivity.
    - apply IH; [cbn in Le; lia|]. intros j c' es' H1 H2. apply (Col (S j) c' es'); auto. }
  exists G. split; auto.
  assert (KR : forall x, In x G -> exists e, In e (ents_of gg) /\ krep d' (ae_key e) (gp_key x) /\ wfkey d' q (gp_key x)).
  { intros x Hxg. destruct (F2_r _ _ _ FG x Hxg) as (e & X1 & X2 & X3 & _). eauto. }
  split; [|split].
  - clear - FG ND Hw'. induction FG as [|e x es G (A & B & C & D) FG IH]; cbn [map]; [constructor|]. cbn [map] in ND. inversion ND as [|? ? Hnin ND']; subst. constructor; auto.
    intro Hin. apply Hnin. apply in_map_iff in Hin as (y & Ey & Hy). destruct (F2_r _ _ _ FG y Hy) as (e' & X1 & X2 & _).
    rewrite Ey in X2. rewrite (krep_fun d' _ _ _ (proj1 Hw') A X2). apply in_map. exact X1.
  - intro K. rewrite in_map_iff. split.
    + intros (x & <- & Hxg). destruct (KR x Hxg) as (e & He & R1 & W1). apply (touched_present d' q recs ss _ (ae_key e)); auto. apply HP. apply in_map. auto.
    + intros HK. assert (exists key, krep d' key K /\ wfkey d' q K) as (key & R1 & W1).
      { destruct HK as (r & K1 & Hr & G1 & H). assert (exists s, In s ss /\ step_for d' q r s) as (s & Hss & K2 & G2 & W2 & R2 & (As & A1 & A2 & A3) & M).
        { exact (F2_l _ _ _ F2' r Hr). }
        assert (K2 = K1) by (eapply group_key_fun; eauto). subst K2. destruct H as [->|(HE2 & _)]; [eauto|]. assert (WA := wfkey_encl d' q K K1 W2 HE2). apply A3 in HE2.
        assert (exists key, krep d' key K) as (key & RK). { destruct (F2_r _ _ _ A1 K HE2) as (x & X1 & X2). eauto. } eauto. }
      apply (touched_present d' q recs ss K key) in HK; auto. apply HP in HK. apply in_map_iff in HK as (e & Ee & He). 
      assert (exists x, In x G /\ krep d' (ae_key e) (gp_key x) /\ wfkey d' q (gp_key x)) as (x & Hxg & RX & WX).
      { destruct (F2_l _ _ _ FG e He) as (x & X1 & X2 & X3 & _). eauto. }
      exists x. split; auto. rewrite Ee in RX. eapply krep_inj; eauto.
  - clear - FG. induction FG as [|e x es G (A & B & C & D) FG IH]; constructor; auto.
Qed.
