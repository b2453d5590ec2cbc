(* C76: an example with two files that assign different ids; distributing the records over files differently *)
From Verif Require Import Base VariantModel VariantSpec NamesModel NamesProps TextModel TreeModel TreeProofs CaliFileModel CaliFileProofs CaliFileProofs2 CaliFileProofs3 CaliFileProofs4 CaliFileProofs5 CaliFileProps ArithSpec AggModel AggSpec AggSpec2 AggProofs AggProofs2 AggProofs3 AggProofs4 AggProofs5 AggProofs6 AggProofs7 AggProofs9 AggProofs11 AggProps FilterModel QFileModel QFileSpec QFileProofs QFileProofs2 QFileProofs3 QFileProofs4 QFileProofs5 QFileProofs6 QFileProps.
From Coq Require Import Permutation.
Open Scope N_scope.

(* The same records distributed over other files, in another order: the same groups, the same number of records
   and (for integers) the same sum in each of them *)
Lemma perm_filter' {A} (f : A -> bool) l l' : Permutation l l' -> Permutation (filter f l) (filter f l').
Proof. induction 1 as [|x l l' P IH|x y l|l l' l'' P IH P' IH']; cbn [filter]; [constructor| | |eapply perm_trans; eauto]; destruct (f x); auto; destruct (f y); auto. constructor. Qed.
Lemma zsum_perm l l' : Permutation l l' -> zsum l = zsum l'.
Proof. unfold zsum. induction 1; cbn [fold_right]; lia. Qed.
Theorem C76_distribution parse D conds q W W' : Permutation W W' ->
  (forall G, present D q (passing parse D conds W) G <-> present D q (passing parse D conds W') G) /\
  (forall G i, length (below_group D q i G (passing parse D conds W)) = length (below_group D q i G (passing parse D conds W'))) /\
  (forall G i x, Forall (fun v => exists z, v = VInt z /\ s64_ok z) (measured x W) ->
     fold1 vadd (measured x (below_group D q i G (passing parse D conds W))) = fold1 vadd (measured x (below_group D q i G (passing parse D conds W')))).
Proof.
  intro P. assert (P2 : Permutation (passing parse D conds W) (passing parse D conds W')) by (apply perm_filter', P). split; [|split].
  - intro G. unfold present. split; intros (w & Hw & H); exists w; (split; [|exact H]); [exact (Permutation_in w P2 Hw)|exact (Permutation_in w (Permutation_sym P2) Hw)].
  - intros G i. apply Permutation_length, perm_filter', P2.
  - intros G i x F. assert (P3 : Permutation (measured x (below_group D q i G (passing parse D conds W))) (measured x (below_group D q i G (passing parse D conds W')))) by (apply Permutation_flat_map, perm_filter', P2).
    assert (F1 : Forall (fun v => exists z, v = VInt z /\ s64_ok z) (measured x (below_group D q i G (passing parse D conds W)))).
    { rewrite Forall_forall in *. intros v Hv. apply F. unfold measured in *. apply in_flat_map in Hv as (w & Hw & Hv). apply in_flat_map. exists w. split; [|exact Hv]. unfold below_group, passing in Hw. apply filter_In in Hw as (Hw & _). apply filter_In in Hw as (Hw & _). exact Hw. }
    assert (X : forall l, Forall (fun v => exists z, v = VInt z /\ s64_ok z) l -> fold1 vadd l = match l with [] => VInv | _ => VInt (swrap (zsum (map the_int l))) end).
    { intros l Fl. assert (E : l = map VInt (map the_int l) /\ Forall s64_ok (map the_int l)). { clear - Fl. induction Fl as [|v l (z & -> & Hz) F (IH1 & IH2)]; [split; [reflexivity|constructor]|]. cbn [map the_int]. split; [f_equal; exact IH1|constructor; auto]. }
      destruct l as [|v l]; [reflexivity|]. destruct E as (E & Hz). rewrite E at 1. destruct (C30_integer_folds (map the_int (v :: l)) Hz) as (Ef & _); [discriminate|exact Ef]. }
    rewrite (X _ F1), (X _ (Permutation_Forall P3 F1)). pose proof (zsum_perm _ _ (Permutation_map the_int P3)) as Z.
    destruct (measured x (below_group D q i G (passing parse D conds W))) as [|v l].
    + apply Permutation_nil in P3. rewrite P3. reflexivity.
    + destruct (measured x (below_group D q i G (passing parse D conds W'))) as [|v' l']; [apply Permutation_sym, Permutation_nil in P3; discriminate P3|]. rewrite Z. reflexivity.
Qed.

(* ================= an example ================= *)
Definition s_time : bytes := [116;105;109;101].
Definition s_main : value := VStr [109;97;105;110].
Definition s_foo : value := VStr [97;44;98;61;99;10].
Definition qx_db1 : mdb :=
  let d1 := snd (create_attribute db_init s_region T_STRING 276) in
  let d2 := snd (create_attribute d1 s_time T_INT 1) in
  snd (make_tree_entry d2 [(16, s_main); (16, s_foo)] ROOT).
Definition qx_db2 : mdb :=
  let d1 := snd (create_attribute db_init s_time T_INT 1) in
  let d2 := snd (create_attribute d1 s_region T_STRING 276) in
  snd (make_tree_entry d2 [(18, s_main); (18, s_foo)] ROOT).
Lemma qx_db_ok d : d = qx_db1 \/ d = qx_db2 -> db_ok d.
Proof.
  intros [->| ->].
  - unfold qx_db1. set (d1 := snd (create_attribute db_init s_region T_STRING 276)). assert (H1 : db_ok d1) by apply (create_attribute_ok db_init _ _ _ db_init_ok).
    set (d2 := snd (create_attribute d1 s_time T_INT 1)). assert (H2 : db_ok d2) by apply (create_attribute_ok d1 _ _ _ H1).
    apply make_tree_entry_ok; auto. repeat constructor; cbn [fst snd]; try discriminate; vm_compute; reflexivity.
  - unfold qx_db2. set (d1 := snd (create_attribute db_init s_time T_INT 1)). assert (H1 : db_ok d1) by apply (create_attribute_ok db_init _ _ _ db_init_ok).
    set (d2 := snd (create_attribute d1 s_region T_STRING 276)). assert (H2 : db_ok d2) by apply (create_attribute_ok d1 _ _ _ H1).
    apply make_tree_entry_ok; auto. repeat constructor; cbn [fst snd]; try discriminate; vm_compute; reflexivity.
Qed.
Lemma qx_len d : d = qx_db1 \/ d = qx_db2 -> length (d_nodes d) = 21%nat.
Proof. intros [->| ->]; vm_compute; reflexivity. Qed.
(* ids of region and time *)
Definition qx_r (d : mdb) : N := match get_attr d s_region with Some a => a | None => 0 end.
Definition qx_t (d : mdb) : N := match get_attr d s_time with Some a => a | None => 0 end.
Lemma climb_det lk a f f' i v v' : climb f lk i a = Some v -> climb f' lk i a = Some v' -> v = v'.
Proof. intros H H'. destruct (Nat.le_ge_cases f f') as [L|L]; [pose proof (climb_mono _ _ _ _ _ H f' L)|pose proof (climb_mono _ _ _ _ _ H' f L)]; congruence. Qed.
Lemma qx_nodes d : d = qx_db1 \/ d = qx_db2 -> forall i n, dnode d i = Some n -> 12 <= i -> typed no_fmt no_parse (dnode d) (n_attr n) (n_val n) /\ visible (dnode d) (n_attr n).
Proof.
  intro Hd. assert (V : forall a, (a = 8 \/ a = 10 \/ a = qx_r d) -> visible (dnode d) a).
  { intros a Ha fuel z H. assert (E : exists z', climb 3 (dnode d) a 10 = Some (VInt z') /\ Z.land z' HIDDEN = 0%Z \/ (forall f, climb f (dnode d) a 10 = None)).
    { destruct Ha as [->|[->| ->]].
      - exists 0%Z. right. intro f. destruct Hd; subst d; destruct f as [|[|[|f]]]; vm_compute; reflexivity.
      - exists 0%Z. right. intro f. destruct Hd; subst d; destruct f as [|[|[|f]]]; vm_compute; reflexivity.
      - exists 276%Z. left. split; destruct Hd; subst d; vm_compute; reflexivity. }
    destruct E as (z' & [(E & Hz)|E]); [|congruence]. pose proof (climb_det _ _ _ _ _ _ _ H E). congruence. }
  intros i n Hn Hi. pose proof (dnode_lt _ _ _ Hn) as Hl. rewrite (qx_len d Hd) in Hl.
  rewrite dnode_nth in Hn. assert (Hk : (12 <= N.to_nat i < 21)%nat) by lia. revert Hn Hk. generalize (N.to_nat i). intros k Hn Hk.
  destruct Hd; subst d; do 12 (destruct k as [|k]; [lia|]); vm_compute in Hn;
  (do 9 (destruct k as [|k]; [injection Hn as <-; cbn [n_attr n_val]; split; [split; [cbn; try reflexivity; unfold s64_ok; lia|exists 5%nat; vm_compute; reflexivity]|apply V; auto]|]); lia).
Qed.
Definition qx_calls (d : mdb) (z1 z2 : Z) : list call := [mkcall (dnode d) false [ERef 20; EImm (qx_t d) (VInt z1)]; mkcall (dnode d) false [EImm (qx_t d) (VInt z2); ERef 19]].
Definition qx_file (d : mdb) (z1 z2 : Z) : file := mkfile (dnode d) N.to_nat (qx_calls d z1 z2) (match write_calls 30 (qx_calls d z1 z2) w_init with Some w => w | None => w_init end).
Definition qx_files : list file := [qx_file qx_db1 (-7) 42; qx_file qx_db2 100 5].
Lemma qx_file_ok d z1 z2 : d = qx_db1 \/ d = qx_db2 -> s64_ok z1 -> s64_ok z2 -> (exists w, write_calls 30 (qx_calls d z1 z2) w_init = Some w) -> file_ok no_fmt no_parse (qx_file d z1 z2).
Proof.
  intros Hd H1 H2 (w & Hw). pose proof (qx_len d Hd) as L.
  assert (Hs : src_ok (dnode d) N.to_nat) by (apply db_src_ok; [apply (qx_db_ok d Hd)|rewrite L; vm_compute; reflexivity]).
  assert (T : forall z, s64_ok z -> typed no_fmt no_parse (dnode d) (qx_t d) (VInt z)) by (intros z Hz; split; [exact Hz|exists 5%nat; destruct Hd; subst d; vm_compute; reflexivity]).
  split; [exact Hs|]. split. { intros i n Hn. cbn [fl_src qx_file] in Hn. apply dnode_lt in Hn. rewrite L in Hn. eapply N.lt_trans; [exact Hn|]. reflexivity. }
  split; [exact (qx_nodes d Hd)|]. split; [|exists 30%nat; cbn [fl_calls fl_writer qx_file]; rewrite Hw; reflexivity].
  cbn [fl_calls fl_src qx_file qx_calls].
  assert (G : forall z r, s64_ok z -> (r = 19 \/ r = 20) -> forall rec, (rec = [ERef r; EImm (qx_t d) (VInt z)] \/ rec = [EImm (qx_t d) (VInt z); ERef r]) -> call_ok no_fmt no_parse (dnode d) (mkcall (dnode d) false rec)).
  { intros z r Hz Hr rec Hrec. unfold call_ok; cbn [c_db c_rec].
    split; [intros i n H; exact H|]. split; [exists N.to_nat; apply Hs|]. split; [destruct Hrec; subst rec; discriminate|]. split; [destruct Hrec; subst rec; intro a; cbn; discriminate|]. split.
    - intros i Hi. assert (i = r) by (destruct Hrec; subst rec; cbn in Hi; intuition congruence). subst i. destruct Hr; subst r; destruct Hd; subst d; eexists; (split; [vm_compute; reflexivity|discriminate]).
    - intros a v Hi. assert (a = qx_t d /\ v = VInt z) as (-> & ->) by (destruct Hrec; subst rec; cbn in Hi; intuition congruence). split; [apply T; auto|]. destruct Hd; subst d; eexists; (split; [vm_compute; reflexivity|reflexivity]). }
  constructor; [apply (G z1 20); auto|]. constructor; [apply (G z2 19); auto|constructor].
Qed.
(* meanings and paths by evaluation *)
Fixpoint meanf (fuel : nat) (lk : N -> option tnode) (i : N) : option meaning :=
  match fuel with O => None | S f =>
    if i =? INV_ID then Some MRoot else if i <? 12 then Some (MBoot i) else
    match lk i with None => None | Some n => match meanf f lk (n_attr n), meanf f lk (par_id n) with Some a, Some p => Some (MNode a (n_val n) p) | _, _ => None end end
  end.
Lemma meanf_ok fuel lk : forall i M, meanf fuel lk i = Some M -> mean lk i M.
Proof.
  induction fuel as [|f IH]; intros i M H; [discriminate H|]. cbn [meanf] in H. destruct (N.eqb_spec i INV_ID); [injection H as <-; subst; constructor|]. destruct (N.ltb_spec i 12); [injection H as <-; constructor; auto|].
  destruct (lk i) as [n'|] eqn:E; [|discriminate H]. destruct (meanf f lk (n_attr n')) as [a|] eqn:Ea; [|discriminate H]. destruct (meanf f lk (par_id n')) as [p|] eqn:Ep; [|discriminate H]. injection H as <-. constructor; auto.
Qed.
Fixpoint pathf (fuel : nat) (lk : N -> option tnode) (i : N) : option (list (bytes * value)) :=
  match fuel with O => None | S f =>
    if i =? INV_ID then Some [] else match lk i with None => None | Some n =>
      match lk (n_attr n), pathf f lk (par_id n) with Some an, Some l => match n_val an with VStr s => Some ((s, n_val n) :: l) | _ => None end | _, _ => None end end
  end.
Lemma pathf_ok fuel lk : forall i l, pathf fuel lk i = Some l -> path lk i l.
Proof.
  induction fuel as [|f IH]; intros i l H; [discriminate H|]. cbn [pathf] in H. destruct (N.eqb_spec i INV_ID); [injection H as <-; subst; constructor|].
  destruct (lk i) as [n'|] eqn:E; [|discriminate H]. destruct (lk (n_attr n')) as [an|] eqn:Ea; [|discriminate H]. destruct (pathf f lk (par_id n')) as [p|] eqn:Ep; [|discriminate H]. destruct (n_val an) eqn:Ev; try discriminate H. injection H as <-. eapply path_node; eauto.
Qed.
Lemma path_fun lk i l : lk INV_ID = None -> path lk i l -> forall l', path lk i l' -> l = l'.
Proof. intro H0. induction 1 as [|i n an name l Hn Ha Hv Hp IH]; intros l' H'; inversion H'; subst; try congruence. assert (n0 = n) by congruence. subst n0. assert (an0 = an) by congruence. subst an0. f_equal; [f_equal; congruence|auto]. Qed.
(* the dictionary *)
Definition qx_dict : dict := mkdict
  (fun s => match get_attr qx_db1 s with Some a => if a =? 8 then None else meanf 30 (dnode qx_db1) a | None => None end)
  (beqb s_region) (fun s => if beqb s s_time then T_INT else T_STRING).
Lemma qx_called d a s : d = qx_db1 \/ d = qx_db2 -> 12 <= a -> called (dnode d) a s -> a = 13 /\ s = lit_alias \/ a = 14 /\ s = lit_unit \/ a = qx_r d /\ s = s_region \/ a = qx_t d /\ s = s_time.
Proof.
  intros Hd Ha (n & Hn & H8 & Hs). pose proof (dnode_lt _ _ _ Hn) as Hl. rewrite (qx_len d Hd) in Hl. rewrite dnode_nth in Hn.
  assert (Hk : (12 <= N.to_nat a < 21)%nat) by lia. rewrite <- (N2Nat.id a). revert Hn Hk. generalize (N.to_nat a). intros k Hn Hk.
  destruct Hd; subst d; do 12 (destruct k as [|k]; [lia|]); vm_compute in Hn;
  (do 9 (destruct k as [|k]; [injection Hn as <-; cbn [n_attr n_val] in *; first [discriminate H8|injection Hs as <-; vm_compute; tauto]|]); lia).
Qed.
Lemma qx_agrees d : d = qx_db1 \/ d = qx_db2 -> agrees qx_dict (dnode d).
Proof.
  intros Hd a s Ha Hc. destruct (qx_called d a s Hd Ha Hc) as [(-> & ->)|[(-> & ->)|[(-> & ->)|(-> & ->)]]]; (split; [|split]).
  1,4,7,10: eexists; (split; [vm_compute; reflexivity|apply (meanf_ok 30); destruct Hd; subst d; vm_compute; reflexivity]).
  - split; [discriminate|]. intros (f & z & E & Hz). assert (E2 : climb 9 (dnode d) 13 10 = Some (VInt 64)) by (destruct Hd; subst d; vm_compute; reflexivity). pose proof (climb_det _ _ _ _ _ _ _ E E2) as X. injection X as ->. destruct Hz. reflexivity.
  - intros f t E. assert (E2 : climb 9 (dnode d) 13 9 = Some (VType T_STRING)) by (destruct Hd; subst d; vm_compute; reflexivity). pose proof (climb_det _ _ _ _ _ _ _ E E2) as X. injection X as ->. reflexivity.
  - split; [discriminate|]. intros (f & z & E & Hz). assert (E2 : climb 9 (dnode d) 14 10 = Some (VInt 64)) by (destruct Hd; subst d; vm_compute; reflexivity). pose proof (climb_det _ _ _ _ _ _ _ E E2) as X. injection X as ->. destruct Hz. reflexivity.
  - intros f t E. assert (E2 : climb 9 (dnode d) 14 9 = Some (VType T_STRING)) by (destruct Hd; subst d; vm_compute; reflexivity). pose proof (climb_det _ _ _ _ _ _ _ E E2) as X. injection X as ->. reflexivity.
  - split; [|reflexivity]. intros _. exists 9%nat, 276%Z. split; [destruct Hd; subst d; vm_compute; reflexivity|vm_compute; discriminate].
  - intros f t E. assert (E2 : climb 9 (dnode d) (qx_r d) 9 = Some (VType T_STRING)) by (destruct Hd; subst d; vm_compute; reflexivity). pose proof (climb_det _ _ _ _ _ _ _ E E2) as X. injection X as ->. reflexivity.
  - split; [discriminate|]. intros (f & z & E & Hz). assert (E2 : climb 9 (dnode d) (qx_t d) 10 = Some (VInt 1)) by (destruct Hd; subst d; vm_compute; reflexivity). pose proof (climb_det _ _ _ _ _ _ _ E E2) as X. injection X as ->. destruct Hz. reflexivity.
  - intros f t E. assert (E2 : climb 9 (dnode d) (qx_t d) 9 = Some (VType T_INT)) by (destruct Hd; subst d; vm_compute; reflexivity). pose proof (climb_det _ _ _ _ _ _ _ E E2) as X. injection X as ->. reflexivity.
Qed.
Lemma qx_plain_keys d : d = qx_db1 \/ d = qx_db2 -> plain_keys [s_region] (dnode d).
Proof.
  intros Hd a s p Ha Hc Hp k [<-|[]]. assert (H0 : dnode d INV_ID = None). { destruct (dnode d INV_ID) as [n|] eqn:E; [|reflexivity]. apply dnode_lt in E. rewrite (qx_len d Hd) in E. vm_compute in E. discriminate E. }
  assert (X : exists p', pathf 30 (dnode d) a = Some p' /\ existsb (beqb s_region) (map fst p') = false).
  { destruct (qx_called d a s Hd Ha Hc) as [(-> & ->)|[(-> & ->)|[(-> & ->)|(-> & ->)]]]; destruct Hd; subst d; eexists; (split; [vm_compute; reflexivity|reflexivity]). }
  destruct X as (p' & E & Hn). rewrite (path_fun _ _ _ H0 Hp _ (pathf_ok 30 _ _ _ E)). intro I. assert (T : existsb (beqb s_region) (map fst p') = true) by (apply existsb_exists; exists s_region; split; [exact I|reflexivity]). congruence.
Qed.
Lemma qx_plain d z1 z2 : d = qx_db1 \/ d = qx_db2 -> plain_file (qx_file d z1 z2).
Proof.
  intros Hd r e Hr He. cbn [qx_file fl_calls fl_src qx_calls] in *.
  assert (P19 : plain_node (dnode d) 19) by (destruct Hd; subst d; (eapply pn_node; [vm_compute; reflexivity|vm_compute; discriminate|apply pn_root])).
  assert (P20 : plain_node (dnode d) 20). { destruct Hd; subst d; (eapply pn_node; [vm_compute; reflexivity|vm_compute; discriminate|exact P19]). }
  assert (Pt : 12 <= qx_t d) by (destruct Hd; subst d; vm_compute; discriminate).
  destruct Hr as [<-|[<-|[]]]; destruct He as [<-|[<-|[]]]; cbn [plain_entry fst snd]; auto.
Qed.
(* the query: SELECT *,sum(time),count() GROUP BY region *)
Definition qx_query : qspec := mkq [s_region] false false [CSum s_time false; CSum s_time true; CCount].
Definition qx_written : list nrec :=
  [[NRef [(s_region, s_foo); (s_region, s_main)]; NImm s_time (VInt (-7))]; [NRef [(s_region, s_main)]; NImm s_time (VInt 42)];
   [NRef [(s_region, s_foo); (s_region, s_main)]; NImm s_time (VInt 100)]; [NRef [(s_region, s_main)]; NImm s_time (VInt 5)]].
Lemma qx_says d z r p : d = qx_db1 \/ d = qx_db2 -> pathf 30 (dnode d) r = Some p -> record_says (dnode d) [ERef r; EImm (qx_t d) (VInt z)] [NRef p; NImm s_time (VInt z)].
Proof.
  intros Hd Hp. constructor; [constructor; apply (pathf_ok 30), Hp|]. constructor; [|constructor]. constructor. destruct Hd; subst d; eexists; (split; [vm_compute; reflexivity|split; reflexivity]).
Qed.
Theorem qx_ok : query_ok no_fmt no_parse qx_dict qx_query qx_files qx_written.
Proof.
  assert (H1 : qx_db1 = qx_db1 \/ qx_db1 = qx_db2) by (left; reflexivity). assert (H2 : qx_db2 = qx_db1 \/ qx_db2 = qx_db2) by (right; reflexivity).
  split.
  - constructor; [|constructor; [|constructor]]; (apply qx_file_ok; [assumption|unfold s64_ok; lia|unfold s64_ok; lia|eexists; vm_compute; reflexivity]).
  - constructor; [|constructor; [|constructor]]; (split; [apply qx_agrees; assumption|split; [apply qx_plain_keys; assumption|apply qx_plain; assumption]]).
  - intros s M a HM Ha. cbn [dc_mean qx_dict] in HM.
    assert (Hs : s = lit_attr_name /\ a = 8 \/ s = lit_alias /\ a = 13 \/ s = lit_unit /\ a = 14).
    { unfold get_attr in Ha. change (d_attrs db_init) with [(lit_unit, 14); (lit_alias, 13); (lit_attr_name, 8)] in Ha. cbn [alookup] in Ha.
      destruct (beqb lit_unit s) eqn:E1; [apply beqb_eq in E1; subst; right; right; split; congruence|]. destruct (beqb lit_alias s) eqn:E2; [apply beqb_eq in E2; subst; right; left; split; congruence|]. destruct (beqb lit_attr_name s) eqn:E3; [apply beqb_eq in E3; subst; left; split; congruence|discriminate Ha]. }
    destruct Hs as [(-> & ->)|[(-> & ->)|(-> & ->)]]; vm_compute in HM; [discriminate HM| |]; (apply (meanf_ok 30); vm_compute; exact HM).
  - intros s Hin. vm_compute in Hin. destruct Hin as [<-|[<-|[<-|[]]]]; vm_compute; reflexivity.
  - exists [firstn 2 qx_written; skipn 2 qx_written]. split; [|reflexivity].
    constructor; [|constructor; [|constructor]]; (constructor; [|constructor; [|constructor]]); apply qx_says; auto; vm_compute; reflexivity.
  - vm_compute. reflexivity.
Qed.
(* the filter time >= 10 (the text of the condition is read as the integer 10) *)
Definition qx_parse : N -> bytes -> value := fun _ _ => VInt 10.
Definition qx_conds : list cond := [mkcond OGreaterEq s_time [49;48]].
Example C76_case : query_ok no_fmt no_parse qx_dict qx_query qx_files qx_written /\ query_ok no_fmt no_parse qx_dict (mkq [] false false []) qx_files qx_written /\ no_avg qx_query /\
  passing qx_parse qx_dict qx_conds qx_written = [[NRef [(s_region, s_main)]; NImm s_time (VInt 42)]; [NRef [(s_region, s_foo); (s_region, s_main)]; NImm s_time (VInt 100)]] /\
  (exists d g out d', aggregate_files no_parse qx_parse qx_conds qx_query (map (text_of no_fmt) qx_files) = Some (d, g, false) /\ flush qx_query (d, g) = Some (out, d') /\
    out = [[ERef 17; EImm 22 (VInt 42); EImm 23 (VInt 142); EImm 25 (VUint 1)]; [ERef 18; EImm 22 (VInt 100); EImm 23 (VInt 100); EImm 25 (VUint 1)]] /\
    map (get_attr d') [p_sum ++ s_time; p_incl ++ s_time; n_count] = [Some 22; Some 23; Some 25]).
Proof.
  pose proof qx_ok as [Hf Hg Hi Hfr Hw Hs]. split; [exact qx_ok|]. split.
  { split; [exact Hf| |exact Hi|intros s []|exact Hw|vm_compute; reflexivity]. eapply Forall_impl; [|exact Hg]. intros f (A1 & _ & A3). split; [exact A1|]. split; [intros a s p _ _ _ k []|exact A3]. }
  split; [repeat constructor|]. split; [vm_compute; reflexivity|].
  destruct (aggregate_files no_parse qx_parse qx_conds qx_query (map (text_of no_fmt) qx_files)) as [((d, g), e)|] eqn:E; [|vm_compute in E; discriminate E].
  assert (C : match aggregate_files no_parse qx_parse qx_conds qx_query (map (text_of no_fmt) qx_files) with Some (d, g, e) => e = false /\ match flush qx_query (d, g) with Some (out, d') =>
    out = [[ERef 17; EImm 22 (VInt 42); EImm 23 (VInt 142); EImm 25 (VUint 1)]; [ERef 18; EImm 22 (VInt 100); EImm 23 (VInt 100); EImm 25 (VUint 1)]] /\ map (get_attr d') [p_sum ++ s_time; p_incl ++ s_time; n_count] = [Some 22; Some 23; Some 25] | None => False end | None => False end) by (vm_compute; repeat split; reflexivity).
  rewrite E in C. destruct C as (-> & C). exists d, g. destruct (flush qx_query (d, g)) as [(out, d')|] eqn:F; [|destruct C]. exists out, d'. split; [reflexivity|]. split; [reflexivity|exact C].
Qed.
