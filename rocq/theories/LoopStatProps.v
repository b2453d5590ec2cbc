(* C78: loop statistics *)
From Verif Require Import Base LoopStatModel LoopStatSpec.
Open Scope N_scope.

(* the state after a piece: the innermost loop has counted its iterations; its start time is that of the last iteration *)
Lemma run_piece p : proper p -> forall i r sn, exists t', ls_run (mksst (i :: r) sn) (events p) = mksst (mkli t' (li_num i + iterations p) :: r) (sn ++ report true p) /\
  (iterations p = 0 -> t' = li_start i).
Proof.
  unfold ls_run. induction p as [|k t0 t1 body IHb rest IHr]; intros Hp i r sn.
  - exists (li_start i). cbn. rewrite N.add_0_r, app_nil_r. destruct i; auto.
  - destruct Hp as (H1 & H2 & H3). cbn [events fold_left]. rewrite fold_left_app. cbn [fold_left]. destruct k; cbn [ls_step ls_loops ls_snaps].
    + destruct (IHb H2 (mkli t0 0) (i :: r) sn) as (t' & -> & _). cbn [ls_step ls_loops ls_snaps li_num].
      destruct (IHr H3 i r ((sn ++ report true body) ++ [Count (0 + iterations body)])) as (t2 & -> & E). exists t2. cbn [iterations report]. rewrite !N.add_0_l, <- !app_assoc. auto.
    + destruct (IHb H2 (mkli t0 (li_num i + 1)) r sn) as (t' & -> & E1). rewrite E1 by auto. cbn [ls_step ls_loops ls_snaps li_num li_start].
      destruct (IHr H3 (mkli t0 (li_num i + 1 + iterations body)) r ((sn ++ report true body) ++ [Duration (t1 - t0)])) as (t2 & -> & E). exists t2. cbn [iterations report li_num].
      split; [f_equal; [f_equal; f_equal; lia|rewrite <- !app_assoc; auto]|lia].
    + destruct (IHb H2 i r sn) as (t' & -> & E1). cbn [ls_step ls_loops ls_snaps li_num].
      destruct (IHr H3 (mkli t' (li_num i + iterations body)) r (sn ++ report true body)) as (t2 & -> & E). exists t2. cbn [iterations report li_num].
      split; [f_equal; [f_equal; f_equal; lia|rewrite <- app_assoc; auto]|]. intro Z. rewrite E by lia. cbn. apply E1. lia.
Qed.
Lemma run_outside p : proper p -> forall sn, ls_run (mksst [] sn) (events p) = mksst [] (sn ++ report false p).
Proof.
  unfold ls_run. induction p as [|k t0 t1 body IHb rest IHr]; intros Hp sn.
  - cbn. rewrite app_nil_r. auto.
  - destruct Hp as (H1 & H2 & H3). cbn [events fold_left]. rewrite fold_left_app. cbn [fold_left]. destruct k; cbn [ls_step ls_loops ls_snaps].
    + destruct (run_piece body H2 (mkli t0 0) [] sn) as (t' & E & _). unfold ls_run in E. rewrite E. cbn [ls_step ls_loops ls_snaps li_num]. rewrite (IHr H3). cbn [report].
      rewrite N.add_0_l, <- !app_assoc. auto.
    + rewrite (IHb H2). cbn [ls_step ls_loops ls_snaps]. rewrite (IHr H3). cbn [report]. rewrite app_nil_r, <- app_assoc. auto.
    + rewrite (IHb H2). cbn [ls_step ls_loops ls_snaps]. rewrite (IHr H3). cbn [report]. rewrite <- app_assoc. auto.
Qed.
(* a properly nested program: each loop gives one record with the number of its own iterations, each of its iterations one
   record with its duration, in the order in which they end *)
Theorem C78_program : forall p, proper p -> ls_run sst_init (events p) = mksst [] (report false p).
Proof. intros p H. apply (run_outside p H []). Qed.
Print Assumptions C78_program.

(* a channel started inside of open regions: their ends are not recorded, everything that begins later is, if it is in a
   loop that begins later *)
Theorem C78_inside : forall l p, Forall (fun x => proper (fst (fst x))) l -> proper p ->
  ls_run sst_init (inside l ++ events p) = mksst [] (flat_map (fun x => report false (fst (fst x))) l ++ report false p).
Proof.
  intros l p Hl Hp. unfold sst_init. change (flat_map (fun x => report false (fst (fst x))) l ++ report false p) with ([] ++ flat_map (fun x => report false (fst (fst x))) l ++ report false p).
  generalize (@nil ssnap) at 1 2. induction Hl as [|[[q k] now] l Hq Hl IH]; intro sn.
  - cbn. apply run_outside; auto.
  - cbn [inside flat_map fst]. unfold ls_run in *. rewrite <- app_assoc, fold_left_app. pose proof (run_outside q Hq sn) as E. unfold ls_run in E. rewrite E. cbn [app fold_left].
    assert (Z : ls_step (mksst [] (sn ++ report false q)) (SEnd k now) = mksst [] (sn ++ report false q)) by (destruct k; reflexivity).
    rewrite Z, IH, <- !app_assoc. auto.
Qed.
Print Assumptions C78_inside.

(* at any point of a program the service knows the open loops and the number of iterations each has begun *)
Theorem C78_open : forall l last, Forall (fun x => proper (fst (fst x))) l -> proper last ->
  map li_num (ls_loops (ls_run sst_init (upto l last))) = open_loops [] l last.
Proof.
  intros l last Hl Hp. unfold sst_init. change (@nil N) with (map li_num []) at 1. generalize (@nil linfo) as is. generalize (@nil ssnap) as sn.
  assert (P : forall p is sn, proper p -> map li_num (ls_loops (ls_run (mksst is sn) (events p))) = bump (iterations p) (map li_num is)).
  { clear. intros p is sn H. destruct is as [|i r]; [rewrite (run_outside p H); reflexivity|]. destruct (run_piece p H i r sn) as (t' & -> & _). reflexivity. }
  induction Hl as [|[[q k] now] l Hq Hl IH]; intros sn is; cbn [upto open_loops]; [apply P; auto|].
  unfold ls_run in *. rewrite fold_left_app. specialize (P q is sn Hq). destruct (fold_left ls_step (events q) (mksst is sn)) as [is1 sn1]. cbn [ls_loops] in P. cbn [fst] in *.
  cbn [fold_left]. rewrite <- P. destruct k; cbn [ls_step ls_loops ls_snaps].
  - rewrite (IH sn1 (mkli now 0 :: is1)). reflexivity.
  - destruct is1 as [|i r]; [rewrite (IH sn1 []); reflexivity|]. rewrite (IH sn1 (mkli now (li_num i + 1) :: r)). reflexivity.
  - apply IH.
Qed.
Print Assumptions C78_open.

(* totals: the durations of a loop's iterations are as many as its count says *)
Definition counted (x : ssnap) : N := match x with Count n => n | Duration _ => 0 end.
Definition timed (x : ssnap) : N := match x with Count _ => 0 | Duration _ => 1 end.
Definition total (f : ssnap -> N) (l : list ssnap) : N := fold_right N.add 0 (map f l).
Lemma total_app f a b : total f (a ++ b) = total f a + total f b.
Proof. unfold total. induction a; cbn; auto. rewrite IHa. lia. Qed.
Lemma totals p : total counted (report true p) + iterations p = total timed (report true p) /\ (forall b, total counted (report b p) = total counted (report true p)).
Proof.
  induction p as [|k t0 t1 body (IH1 & IH2) rest (IR1 & IR2)]; [cbn; auto|].
  assert (C : forall n, total counted [Count n] = n) by (intro; unfold total; cbn; lia).
  assert (C2 : forall n, total timed [Count n] = 0) by reflexivity.
  assert (D : forall n, total counted [Duration n] = 0) by reflexivity.
  assert (D2 : forall n, total timed [Duration n] = 1) by reflexivity.
  split; [|intro b]; cbn [report iterations]; destruct k; rewrite !total_app, ?C, ?C2, ?D, ?D2; try destruct b; rewrite ?D, ?IR2, ?IH2; try lia.
  cbn. lia.
Qed.
(* inside a loop, the number of duration records is the sum of the counts: no iteration is recorded twice or lost *)
Theorem C78_totals : forall t0 t1 body, proper body ->
  let sn := ls_snaps (ls_run sst_init (events (PRegion KLoop t0 t1 body PNil))) in total counted sn = total timed sn.
Proof.
  intros t0 t1 body H sn. unfold sn. rewrite C78_program by (cbn; split; [discriminate|auto]). cbn [ls_snaps report]. rewrite app_nil_r, !total_app.
  destruct (totals body) as (E & _). unfold total at 2 4. cbn. lia.
Qed.
Print Assumptions C78_totals.

(* a loop of two iterations, the first with an inner loop of one iteration, and an iteration outside of any loop *)
Definition ls_case : prog :=
  PRegion KLoop 10 100 (PRegion KIter 20 60 (PRegion KLoop 25 55 (PRegion KIter 30 50 PNil PNil) (PRegion KOther 56 57 PNil PNil)) (PRegion KIter 70 95 PNil PNil))
  (PRegion KIter 200 210 PNil PNil).
Theorem C78_case : proper ls_case /\ report false ls_case = [Duration 20; Count 1; Duration 40; Duration 25; Count 2] /\
  ls_run sst_init (events ls_case) = mksst [] [Duration 20; Count 1; Duration 40; Duration 25; Count 2] /\
  inside [(PNil, KIter, 5); (ls_case, KLoop, 300)] <> [] /\
  map li_num (ls_loops (ls_run sst_init (upto [(PNil, KLoop, 1); (PRegion KIter 2 3 PNil PNil, KIter, 4)] PNil))) = [2].
Proof. split; [cbn; intuition (try reflexivity; try discriminate)|]. vm_compute. repeat split; auto; discriminate. Qed.
Print Assumptions C78_case.

(* iterations inside of an iteration of the same loop restart its clock: the outer one's duration is wrong *)
Theorem C78_nested_iterations_refuted :
  let p := PRegion KLoop 0 100 (PRegion KIter 10 90 (PRegion KIter 70 80 PNil PNil) PNil) PNil in
  report false p = [Duration 10; Duration 80; Count 2] /\ ls_snaps (ls_run sst_init (events p)) = [Duration 10; Duration 20; Count 2].
Proof. vm_compute. auto. Qed.
Print Assumptions C78_nested_iterations_refuted.
(* all threads share one stack of loops (and access it without a lock): with a loop of one iteration on each of two threads,
   whose callbacks alternate, the first thread's loop gets the other's iterations *)
Theorem C78_threads_refuted : 
  let a := PRegion KLoop 0 100 (PRegion KIter 10 90 PNil PNil) PNil in
  let b := PRegion KLoop 1 95 (PRegion KIter 20 80 PNil PNil) PNil in
  exists l, l = [SBegin KLoop 0; SBegin KLoop 1; SBegin KIter 10; SBegin KIter 20; SEnd KIter 80; SEnd KIter 90; SEnd KLoop 95; SEnd KLoop 100] /\
  filter (fun e => match e with SBegin _ t | SEnd _ t => (t =? 0) || (t =? 10) || (t =? 90) || (t =? 100) end) l = events a /\
  filter (fun e => match e with SBegin _ t | SEnd _ t => (t =? 1) || (t =? 20) || (t =? 80) || (t =? 95) end) l = events b /\
  ls_snaps (ls_run sst_init l) = [Duration 60; Duration 70; Count 2; Count 0].
Proof. eexists. split; [reflexivity|]. vm_compute. auto. Qed.
Print Assumptions C78_threads_refuted.
(* a channel that is deactivated in a loop and activated again after it keeps the loop: iterations outside of loops are recorded *)
Theorem C78_deactivated_refuted : 
  let missed := [SEnd KLoop 50] in
  events (PRegion KLoop 0 50 PNil (PRegion KIter 60 70 PNil PNil)) = [SBegin KLoop 0] ++ missed ++ [SBegin KIter 60; SEnd KIter 70] /\
  ls_snaps (ls_run sst_init ([SBegin KLoop 0] ++ [SBegin KIter 60; SEnd KIter 70])) = [Duration 10].
Proof. vm_compute. auto. Qed.
Print Assumptions C78_deactivated_refuted.
