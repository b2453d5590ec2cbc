(* C72: one CaliWriter used by several threads *)
From Verif Require Import Base VariantModel VariantSpec NamesModel TextModel TreeModel CaliFileModel CaliFileProofs CaliFileProofs2 CaliFileProofs3 CaliFileProofs4 CaliFileProofs5 CaliFileProps CwModel CwSpec CwProofs CwProofs2.

(* whatever the threads do: every line of the file refers only to nodes defined by earlier lines *)
Theorem C72_references_resolved src acts s : tree_src src -> history src acts s -> refs_resolved (cw_lines s).
Proof. intros (rank & Hwf) Hh. apply rclosed_resolved. apply (iv_cl src). eapply history_inv; eauto. apply (wf_id src rank Hwf). Qed.
(* node lines are the nodes of the database: two lines with the same id are identical *)
Theorem C72_node_lines_agree src acts s : tree_src src -> history src acts s ->
  (forall n, In (WNode n) (cw_lines s) -> 11 <= n_id n /\ cw_db s (n_id n) = Some n) /\
  (forall n m, In (WNode n) (cw_lines s) -> In (WNode m) (cw_lines s) -> n_id n = n_id m -> n = m).
Proof.
  intros (rank & Hwf) Hh. pose proof (history_inv src acts s (wf_id src rank Hwf) Hh) as Hi. split; [apply (iv_node _ _ Hi)|].
  intros n m Hn Hm E. apply (iv_node _ _ Hi) in Hn, Hm. rewrite E in Hn. destruct Hn as (_ & Hn), Hm as (_ & Hm). congruence.
Qed.
(* every thread's records are in the file, complete, unchanged and in the order of its calls; a
   record is there at the latest when the call returns *)
Theorem C72_records src acts s t : history src acts s ->
  (exists rest, asked t acts = written_by t s ++ rest) /\ (idle s t -> written_by t s = asked t acts).
Proof.
  intros Hh. pose proof (history_recs src acts s Hh t) as E. split; [eexists; symmetry; exact E|]. intro I. unfold idle in I. rewrite I in E. cbn in E. rewrite app_nil_r in E. exact E.
Qed.
(* no thread writes a node twice *)
Theorem C72_once_per_thread src acts s : tree_src src -> history src acts s -> NoDup (node_writes s).
Proof. intros (rank & Hwf) Hh. apply (history_once src rank Hwf acts s Hh). Qed.
(* a single thread writes each node exactly once: C27's files *)
Theorem C72_single_thread src acts s t : tree_src src -> history src acts s -> solo t acts -> self_contained (cw_lines s).
Proof.
  intros Hw Hh Hsolo. split; [apply (C72_references_resolved src acts s Hw Hh)|].
  assert (Hall : forall x, In x (cw_out s) -> fst x = t).
  { clear Hw. revert Hsolo. induction Hh as [db Hp Hc|acts s a s' Hh IH Ha E]; intros Hsolo x Hx; [destruct Hx|].
    assert (IH' : forall x, In x (cw_out s) -> fst x = t) by (apply IH; intros b Hb; apply Hsolo; apply in_app_iff; auto). clear IH.
    assert (Hs := Hsolo a ltac:(apply in_app_iff; right; left; reflexivity)). destruct a as [u g rec|u|db]; cbn [cw_act] in E.
    - destruct (cw_todo s u); [|discriminate]. injection E as <-. apply IH'; auto.
    - subst u. unfold cw_exec in E. destruct (cw_todo s t) as [|[id|id|n|id|g rec] r]; [discriminate| | | | |].
      + destruct (id <? 11); [|destruct (mem id (cw_written s))]; injection E as <-; apply IH'; auto.
      + destruct (cw_db s id); injection E as <-; apply IH'; auto.
      + injection E as <-. cbn [cw_out] in Hx. apply in_app_iff in Hx. destruct Hx as [Hx|[<-|[]]]; auto.
      + injection E as <-. apply IH'; auto.
      + injection E as <-. cbn [cw_out] in Hx. apply in_app_iff in Hx. destruct Hx as [Hx|[<-|[]]]; auto.
    - injection E as <-. apply IH'; auto. }
  pose proof (C72_once_per_thread src acts s Hw Hh) as ND.
  assert (Ew : wids (cw_lines s) = map snd (node_writes s)).
  { unfold cw_lines, node_writes, wids. clear. induction (cw_out s) as [|(u, [n|g r i]) l IH]; cbn; auto. rewrite IH. reflexivity. }
  assert (NDw : NoDup (wids (cw_lines s))).
  { rewrite Ew. assert (Hn : forall x, In x (node_writes s) -> fst x = t).
    { intros x Hx. unfold node_writes in Hx. apply in_flat_map in Hx. destruct Hx as ((u, l) & Hl & Hx). specialize (Hall _ Hl). cbn [fst] in Hall. destruct l; [destruct Hx as [<-|[]]; exact Hall|destruct Hx]. }
    clear -ND Hn. induction ND as [|(u, i) l Hx ND IH]; cbn [map]; constructor; [|apply IH; intros; apply Hn; right; auto].
    intro Hin. apply in_map_iff in Hin. destruct Hin as ((u', i') & E & Hin). cbn [snd] in E. subst i'. assert (u' = t) by (apply (Hn (u', i)); right; auto). assert (u = t) by (apply (Hn (u, i)); left; auto). subst. contradiction. }
  intros pre n post m E Hm Heq. rewrite E, wids_app in NDw. change (wids (WNode n :: post)) with (n_id n :: wids post) in NDw.
  apply NoDup_remove_2 in NDw. apply NDw. rewrite <- wids_app. apply wids_in. eauto.
Qed.
(* ... and the statements executed by a single thread produce exactly the file of the sequential
   writer model of C27/C28 *)
Theorem C72_single_thread_file fuel cs w t db : write_calls fuel cs w_init = Some w ->
  exists acts s, solo t acts /\ cw_run (cw_start db) acts = Some s /\ idle s t /\ cw_lines s = w_out w /\
    flat_map (fun a => match a with ACall _ g rec => [(g, rec)] | _ => [] end) acts = map (fun c => (c_glob c, c_rec c)) cs.
Proof.
  intro H. destruct (sim_calls t fuel cs w_init w db (cw_start db) H) as (l & s & A & B & C & D & E).
  { unfold sim, cw_start, cw_lines. cbn. auto. }
  exists l, s. auto.
Qed.
(* no deadlock, no starvation: a call that has begun returns after a bounded number of the
   thread's own steps, whatever the other threads do and however the database grows *)
Theorem C72_calls_return src acts s t : tree_src src -> history src acts s ->
  exists bound, forall later s', goes src s later s' -> no_call t later ->
    (steps_of t later <= bound)%nat /\ (idle s' t \/ exists s'', cw_act s' (AExec t) = Some s'').
Proof.
  intros (rank & Hwf) Hh. exists (weight rank (cw_todo s t)). intros later s' Hg Hn. pose proof (run_weight src rank Hwf t later acts s s' Hh Hg Hn) as H. split; [lia|].
  destruct (cw_todo s' t) as [|x r] eqn:Et; [left; exact Et|right]. cbn [cw_act]. unfold cw_exec. rewrite Et. destruct x as [id|id|n|id|g rec]; eauto; [destruct (id <? 11); [|destruct (mem id (cw_written s'))]; eauto|destruct (cw_db s' id); eauto].
Qed.
(* the file can be read back: no error, and every context record is there with the same contents,
   in spite of repeated node lines *)
Lemma rec_fits dfmt dparse src acts s : history src acts s -> Forall (call_fits dfmt dparse src) acts ->
  forall u g r i, In (u, WRec g r i) (cw_out s) \/ In (g, r, i) (pending (cw_todo s u)) -> exists rec, r = refs_of rec /\ i = imms_of rec /\ call_fits dfmt dparse src (ACall u g rec).
Proof.
  intros Hh Hf u g r i Hin. pose proof (history_recs src acts s Hh u) as E.
  assert (Hi : In (g, r, i) (asked u acts)).
  { rewrite <- E, in_app_iff. destruct Hin as [Hin|Hin]; auto. left. unfold written_by. apply in_flat_map. exists (u, WRec g r i). split; auto. rewrite N.eqb_refl. left; reflexivity. }
  unfold asked in Hi. apply in_flat_map in Hi. destruct Hi as (a & Ha & Hi). rewrite Forall_forall in Hf. specialize (Hf a Ha). destruct a as [v g' rec|v|db]; try destruct Hi.
  destruct (N.eqb_spec v u) as [->|]; [destruct Hi as [Hi|[]]|destruct Hi]. injection Hi as -> <- <-. exists rec. auto.
Qed.
Theorem C72_read_back dfmt dparse src rank acts s d : src_ok src rank -> in_range64 src -> src_typed dfmt dparse src -> history src acts s -> Forall (call_fits dfmt dparse src) acts ->
  db_ok d -> N.of_nat (length (d_nodes d) + length (cw_out s)) < INV_ID ->
  exists r, read_stream dparse d (render_stream dfmt (cw_lines s)) = Some r /\ r_err r = false /\ db_ok (r_db r) /\
    Forall2 (Forall2 (same_entry src (dnode (r_db r)))) (file_records s) (r_recs r).
Proof.
  intros Hs Hr Ht Hh Hf Hd Hlen. pose proof (history_inv src acts s (wf_id src rank (so_wf _ _ Hs)) Hh) as Hi.
  assert (Hok : Forall (line_ok dfmt dparse src) (cw_lines s)).
  { apply Forall_forall. intros l Hl. destruct l as [n|g refs imms].
    - apply (iv_node _ _ Hi) in Hl. destruct Hl as (A & B). split; auto. apply (iv_part _ _ Hi); auto.
    - unfold cw_lines in Hl. apply in_map_iff in Hl. destruct Hl as ((u, l) & El & Hl). cbn [snd] in El. subst l.
      destruct (rec_fits dfmt dparse src acts s Hh Hf u g refs imms (or_introl Hl)) as (rec & -> & -> & (F1 & F2 & F3 & F4)).
      split; [intros i Hin; apply refs_in in Hin; auto|]. split; [intros a v Hin; apply imms_in in Hin; auto|]. split; [|exact F2].
      destruct rec as [|[i|a v] r]; [congruence|left; discriminate|right; discriminate]. }
  assert (L : length (cw_lines s) = length (cw_out s)) by apply map_length.
  destruct (read_rclosed dfmt dparse src rank d (cw_lines s) Hs Hr Ht Hd (iv_cl _ _ Hi) Hok) as (r & E & X & Hd' & _ & He & Hl & Hrec); [rewrite L; exact Hlen|].
  exists r. unfold read_stream. rewrite (split_render dfmt dparse src rank) by auto. split; auto. split; auto. split; auto.
  replace (file_records s) with (ctx_recs (cw_lines s)); auto. unfold file_records, ctx_recs, cw_lines, rec_entries. clear. induction (cw_out s) as [|(u, l) out IH]; cbn [map flat_map]; auto. rewrite IH. reflexivity.
Qed.

(* ---- a concrete run: thread 2 writes a record while the database is still growing; then thread 1
   writes one; both threads come across the same new node ---- *)
Definition full_db : N -> option tnode := dnode ex_db.
Definition small_db : N -> option tnode := fun i => if i <? 20 then full_db i else None.
Definition comp_b (db : N -> option tnode) (ids : list N) : bool :=
  forallb (fun i => match db i with
    | None => true
    | Some n => (i <? 11) || (((n_attr n <? 11) || (match db (n_attr n) with Some _ => true | None => false end)) &&
                              match n_par n with Some p => (p =? INV_ID) || (p <? 11) || (match db p with Some _ => true | None => false end) | None => true end)
    end) ids.
Lemma comp_ok db ids : (forall i n, db i = Some n -> In i ids) -> comp_b db ids = true -> complete db.
Proof.
  intros H C i n Hn H11. unfold comp_b in C. rewrite forallb_forall in C. specialize (C i (H i n Hn)). rewrite Hn in C. apply orb_true_iff in C. destruct C as [C|C]; [lia|]. apply andb_true_iff in C. destruct C as (C1 & C2). split.
  - apply orb_true_iff in C1. destruct C1 as [C1|C1]; [left; lia|right]. destruct (db (n_attr n)); [discriminate|discriminate].
  - intros p Hp. rewrite Hp in C2. apply orb_true_iff in C2. destruct C2 as [C2|C2]; [apply orb_true_iff in C2; destruct C2 as [C2|C2]; [left; apply N.eqb_eq; exact C2|right; left; lia]|right; right]. destruct (db p); discriminate.
Qed.
Definition ids21 : list N := map N.of_nat (seq 0 21).
Lemma full_in i n : full_db i = Some n -> In i ids21.
Proof. intro H. apply dnode_lt in H. replace (length (d_nodes ex_db)) with 21%nat in H by (vm_compute; reflexivity). unfold ids21. apply in_map_iff. exists (N.to_nat i). split; [apply N2Nat.id|]. apply in_seq. lia. Qed.
Lemma full_src : src_ok full_db N.to_nat. Proof. apply (proj1 ex_file_ok). Qed.
Lemma full_complete : complete full_db. Proof. apply (comp_ok full_db ids21 full_in). vm_compute. reflexivity. Qed.
Lemma small_part : part_of small_db full_db. Proof. intros i n H. unfold small_db in H. destruct (i <? 20); [exact H|discriminate]. Qed.
Lemma small_complete : complete small_db. Proof. apply (comp_ok small_db ids21); [intros i n H; apply (full_in i n); apply small_part; exact H|vm_compute; reflexivity]. Qed.
(* a schedule: thread numbers; the steps really taken *)
Fixpoint taken (s : cw) (l : list N) : list cact :=
  match l with [] => [] | t :: r => match cw_exec s t with Some s1 => AExec t :: taken s1 r | None => taken s r end end.
Fixpoint after (s : cw) (l : list N) : cw := match l with [] => s | t :: r => match cw_exec s t with Some s1 => after s1 r | None => after s r end end.
Lemma taken_hist src l : forall acts s, history src acts s -> history src (acts ++ taken s l) (after s l).
Proof.
  induction l as [|t l IH]; intros acts s H; cbn [taken after]; [rewrite app_nil_r; exact H|]. destruct (cw_exec s t) as [s1|] eqn:E; [|apply IH; exact H].
  change (AExec t :: taken s1 l) with ([AExec t] ++ taken s1 l). rewrite app_assoc. apply IH. apply (hs_act src acts s (AExec t) s1 H); [exact Logic.I|exact E].
Qed.
Definition st1 : cw := set_todo (cw_start small_db) 2 (call_stmts false ex_rec2).
Definition st2 : cw := after st1 [2; 2; 2].
Definition st3 : cw := mkcw full_db (cw_written st2) (cw_out st2) (cw_todo st2).
Definition st4 : cw := set_todo st3 1 (call_stmts false ex_rec).
Definition sched : list N := flat_map (fun _ => [1; 2]) (seq 0 40).
Definition st5 : cw := after st4 sched.
Definition two_acts : list cact := ((([] ++ [ACall 2 false ex_rec2]) ++ taken st1 [2; 2; 2]) ++ [AGrow full_db]) ++ [ACall 1 false ex_rec].
Lemma two_hist : history full_db (two_acts ++ taken st4 sched) st5.
Proof.
  apply taken_hist. unfold two_acts.
  assert (H1 : history full_db ([] ++ [ACall 2 false ex_rec2]) st1).
  { eapply hs_act; [apply (hs_start full_db small_db small_part small_complete)| |reflexivity]. intros e [<-|[<-|[]]]; vm_compute; discriminate. }
  pose proof (taken_hist full_db [2; 2; 2] _ _ H1) as H2. fold st2 in H2.
  assert (H3 : history full_db ((([] ++ [ACall 2 false ex_rec2]) ++ taken st1 [2; 2; 2]) ++ [AGrow full_db]) st3).
  { eapply hs_act; [exact H2| |reflexivity]. split; [|split; [intros i n H; exact H|exact full_complete]]. intros i n H. apply small_part. exact H. }
  eapply hs_act; [exact H3| |reflexivity]. intros e [<-|[<-|[]]]; vm_compute; discriminate.
Qed.
(* Each node exactly once does not hold with two threads: the check and the insert are separate
   critical sections, and both threads may pass the check before one of them inserts *)
Theorem C72_exactly_once_refuted : exists src acts s, tree_src src /\ history src acts s /\ idle s 1 /\ idle s 2 /\ ~ self_contained (cw_lines s) /\
  exists n, In (1, WNode n) (cw_out s) /\ In (2, WNode n) (cw_out s).
Proof.
  exists full_db, (two_acts ++ taken st4 sched), st5. split; [exists N.to_nat; apply (so_wf _ _ full_src)|]. split; [apply two_hist|]. split; [vm_compute; reflexivity|]. split; [vm_compute; reflexivity|].
  assert (E : nth_error (cw_lines st5) 3 = nth_error (cw_lines st5) 4 /\ exists n, nth_error (cw_lines st5) 3 = Some (WNode n) /\ In (1, WNode n) (cw_out st5) /\ In (2, WNode n) (cw_out st5)).
  { split; [vm_compute; reflexivity|]. eexists. split; [vm_compute; reflexivity|]. vm_compute. auto 20. }
  destruct E as (E1 & n & E2 & I1 & I2). split; [|exists n; split; [exact I1|exact I2]]. intros (_ & H). rewrite E2 in E1. symmetry in E1.
  destruct (nth_error_split _ _ E1) as (pre & post & Ep & El).
  assert (Hin : In (WNode n) pre). { apply (nth_error_In pre 3). rewrite <- E2, Ep. symmetry. apply nth_error_app1. rewrite El. repeat constructor. }
  refine (H pre n post n Ep _ eq_refl). apply in_app_iff. left. exact Hin.
Qed.
(* the hypotheses of C72 hold for this run, and the file is read back *)
Example C72_case : tree_src full_db /\ history full_db (two_acts ++ taken st4 sched) st5 /\ Forall (call_fits no_fmt no_parse full_db) (two_acts ++ taken st4 sched) /\
  length (cw_out st5) = 10%nat /\ NoDup (node_writes st5) /\ written_by 1 st5 = [(false, [20], [(18, VInt (-7))])] /\
  exists r, read_stream no_parse db_init (render_stream no_fmt (cw_lines st5)) = Some r /\ r_err r = false /\ length (r_recs r) = 2%nat.
Proof.
  split; [exists N.to_nat; apply (so_wf _ _ full_src)|]. split; [apply two_hist|].
  split. { 
    assert (T : forall z, s64_ok z -> typed no_fmt no_parse full_db 18 (VInt z)) by (intros z Hz; split; [exact Hz|exists 5%nat; vm_compute; reflexivity]).
    assert (G : forall t z r, s64_ok z -> (r = 19 \/ r = 20) -> forall rec, (rec = [ERef r; EImm 18 (VInt z)] \/ rec = [EImm 18 (VInt z); ERef r]) -> call_fits no_fmt no_parse full_db (ACall t false rec)).
    { intros t z r Hz Hr rec Hrec. split; [destruct Hrec as [->| ->]; discriminate|]. split; [intros a Q; destruct Hrec as [->| ->]; discriminate Q|]. split.
      - intros i Hi. assert (i = r) as -> by (destruct Hrec as [->| ->]; destruct Hi as [Hi|[Hi|[]]]; congruence). destruct Hr as [->| ->]; eexists; (split; [vm_compute; reflexivity|vm_compute; discriminate]).
      - intros a v Hi. assert (a = 18 /\ v = VInt z) as (-> & ->) by (destruct Hrec as [->| ->]; destruct Hi as [Hi|[Hi|[]]]; split; congruence). split; [apply T; auto|]. eexists; split; vm_compute; reflexivity. }
    assert (X : forall l s, Forall (call_fits no_fmt no_parse full_db) (taken s l)). { induction l as [|t l IH]; intro s; cbn [taken]; [constructor|]. destruct (cw_exec s t); [constructor; [exact Logic.I|apply IH]|apply IH]. }
    unfold two_acts. repeat (apply Forall_app; split); try apply X; try (constructor; [|constructor]); try exact Logic.I; [constructor| |].
    - apply (G 2 42%Z 19); [unfold s64_ok; lia|auto|right; reflexivity].
    - apply (G 1 (-7)%Z 20); [unfold s64_ok; lia|auto|left; reflexivity]. }
  split; [vm_compute; reflexivity|]. split; [apply (C72_once_per_thread full_db (two_acts ++ taken st4 sched)); [exists N.to_nat; apply (so_wf _ _ full_src)|apply two_hist]|]. split; [vm_compute; reflexivity|].
  eexists. split; [vm_compute; reflexivity|]. split; vm_compute; reflexivity.
Qed.
