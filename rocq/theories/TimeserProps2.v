(* C82: the hypotheses are met; what is lost, and where durations are wrong *)
From Verif Require Import Base VariantModel VariantSpec FloatModel ArithModel TreeModel TreeSpec RuntimeModel RuntimeSpec RuntimeProofs RuntimeProofs2 RuntimeProps RuntimeProps3 RuntimeProps4.
From Verif Require Import RtAggModel RtAggSpec RFilterModel EventModel TimerModel ProfModel ProfSpec ProfProofs2 ProfProps TimeserModel TimeserSpec TimeserProofs TimeserProps.
Open Scope N_scope.

Definition v_c : tscfg := mktcfg x_c 120 121 122.
(* snapshots at 100.0 + 20, 30, 60 after a start at 100.0; the second one by thread u *)
Definition v_rs (u : N) : list round :=
  [mkround (firstn 3 x_h) 0 (d_of_Z 120) [RImm 130 (make_uint 1)] []; mkround [(0, 30, OBegin a_fun (VStr [109]))] u (d_of_Z 130) [] [(1, 33, OEnd a_fun)];
   mkround [(0, 37, OEndCheck a_fun (VStr [109])); (0, 50, OSet a_fun (VStr [121]))] 0 (d_of_Z 160) [] []].
Lemma v_calls u : all_calls (v_rs u) = x_h.
Proof. reflexivity. Qed.
(* the program of C69_ex with these snapshots meets the hypotheses of C82_interval and C82_conserved *)
Example C82_ex : forall u, exists s0 xs0 s' xs, rt_history x_ops0 s0 xs0 /\ Forall (fun p => plain_op (snd p)) x_ops0 /\ profiling (q_prof v_c) s0 /\ In 0 [1; 0] /\
  reports_stats (pc_info (q_prof v_c)) 0 (pc_dur (q_prof v_c)) 101 102 103 104 /\ reports_stats (pc_info (q_prof v_c)) 1 (pc_cnt (q_prof v_c)) 105 106 107 108 /\
  ops_ok s0 (prog (all_calls (v_rs u))) /\ Forall (fun x => plain_op (snd x) /\ leaves_channel (pc_chn (q_prof v_c)) (snd x)) (all_calls (v_rs u)) /\
  rt_run s0 (prog (all_calls (v_rs u))) = Some (s', xs) /\ not_full (r_tree s') /\ r_err s' 0 = false /\
  (forall n o b, In (n, o) (timeline 0 (all_calls (v_rs u))) -> op_attr o = Some b -> find_marker x_es (x_ea (at_id b)) = true) /\
  ordered 0 (timeline 0 (all_calls (v_rs u))) /\ N.of_nat (length (timeline 0 (all_calls (v_rs u)))) < 4294967296 /\
  Forall (fun r => timeline 0 (rd_during r) = []) (v_rs u).
Proof.
  intro u. rewrite v_calls. destruct C69_ex as (s0 & xs0 & s' & xs & H1 & H2 & H3 & H4 & H5 & H6 & H7 & H8 & H9 & H10 & H11 & H12 & H13).
  exists s0, xs0, s', xs. split; [exact H1|]. split; [exact H2|]. split; [exact H3|]. split; [right; left; reflexivity|]. split; [exact H4|]. split; [exact H5|]. split; [exact H6|]. split; [exact H7|].
  split; [exact H8|]. split; [exact H9|]. split; [exact H10|]. split; [exact H11|]. split; [exact H12|]. split; [exact H13|]. repeat constructor.
Qed.
(* thread 0's part of a record and of the snapshot's own record *)
Definition v_read (rs : list round) : option (list (list (path * list N * list N) * list (list N))) :=
  match trun (fun _ _ => true) x_ea x_cv x_mem v_c [0] (tstart (st x_ops0) x_es 99 0 (d_of_Z 100)) rs with
  | Some (s, outs) => Some (map (fun o => (map (fun r => (rec_path (r_tree (p_rt (z_prof s))) r, rec_val r 103, rec_val r 121)) (o_recs o), map (rec_val (o_own o)) [120; 121; 122])) outs)
  | None => None
  end.
Example C82_ex_series : v_read (v_rs 0) = Some
  [([([x_x], [10], [0]); ([x_x; x_m], [15], [0])], [[d_of_Z 100]; [0]; [d_of_Z 20]]);
   ([([x_x], [5], [1])], [[d_of_Z 120]; [1]; [d_of_Z 10]]);
   ([([x_x; x_m], [7], [2]); ([x_x], [13], [2])], [[d_of_Z 130]; [2]; [d_of_Z 30]])].
Proof. vm_compute. reflexivity. Qed.

(* The limits.  A region that thread 0 closes while another thread takes a snapshot - after the
   records were flushed and before they are cleared - is never reported: 7 of 50 units are missing *)
Definition v_during : list round :=
  [mkround (firstn 5 x_h) 1 (d_of_Z 120) [] [(0, 37, OEndCheck a_fun (VStr [109]))]; mkround [(0, 50, OSet a_fun (VStr [121]))] 1 (d_of_Z 160) [] []].
Theorem C82_during_refuted :
  end_time (timeline 0 (all_calls v_during)) = 50 /\ stretches 0 (bb_regions (r_tree (st x_ops0)) (r_tbb (st x_ops0) 0)) (timeline 0 (all_calls v_during)) =
    [([x_x], 10, false); ([x_x; x_m], 15, true); ([x_x], 5, false); ([x_x; x_m], 7, true); ([x_x], 13, false)] /\
  option_map (map fst) (v_read v_during) = Some [[([x_x], [15], [0]); ([x_x; x_m], [15], [0])]; [([x_x], [13], [1])]].
Proof. repeat split; vm_compute; reflexivity. Qed.
(* The start time is kept per thread: the first snapshot that another thread takes has no start time (the empty
   value), and its duration is the time of day; the next snapshot by thread 0 spans both intervals *)
Theorem C82_thread_refuted : option_map (map snd) (v_read (v_rs 1)) = Some
  [[[d_of_Z 100]; [0]; [d_of_Z 20]]; [[0]; [1]; [d_of_Z 130]]; [[d_of_Z 120]; [2]; [d_of_Z 40]]].
Proof. vm_compute. reflexivity. Qed.
Print Assumptions C82_interval.
Print Assumptions C82_conserved.
