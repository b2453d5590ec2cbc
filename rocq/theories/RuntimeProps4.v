(* Examples and limits of C18-C22 *)
From Verif Require Import Base VariantModel VariantSpec TreeModel TreeSpec TreeProofs TreeProofs2
  RuntimeModel RuntimeSpec RuntimeProofs RuntimeProofs2 RuntimeProps RuntimeProps2 RuntimeProps3.

Definition attr_okb (tr : tree) (a : attr) : bool :=
  (12 <=? at_id a) && existsb (fun n => (n_id n =? at_id a) && (n_attr n =? NAME_ATTR_ID)) (t_nodes tr).
Definition rop_okb (s : rt) (o : rop) : bool :=
  match o with
  | OBegin a _ | OEnd a | OEndCheck a _ | OSet a _ | OGet a => attr_okb (r_tree s) a
  | OTree (TGetChild a _ (Some p)) => negb (a =? INV_ID) && existsb (fun n => n_id n =? p) (t_nodes (r_tree s))
  | OTree (TGetChild a _ None) => negb (a =? INV_ID)
  | OTree _ => false
  | _ => true
  end.
Fixpoint ops_okb (s : rt) (ops : list (N * rop)) : bool :=
  match ops with
  | [] => true
  | (t, o) :: r => rop_okb s o && match rt_step s t o with SOk s1 _ => ops_okb s1 r | _ => true end
  end.
Lemma attr_okb_ok tr a : attr_okb tr a = true -> attr_ok tr a.
Proof.
  unfold attr_okb. intro H. apply andb_true_iff in H. destruct H as (H1 & H2). apply N.leb_le in H1. split; auto.
  apply existsb_exists in H2. destruct H2 as (n & Hn & E). apply andb_true_iff in E. destruct E as (E1 & E2). apply N.eqb_eq in E1, E2. eauto.
Qed.
Lemma ops_okb_ok ops : forall s, ops_okb s ops = true -> ops_ok s ops.
Proof.
  induction ops as [|[t o] ops IH]; cbn; intros s H; auto. apply andb_true_iff in H. destruct H as (H1 & H2). split.
  - destruct o; cbn in *; auto using attr_okb_ok. destruct o; try discriminate. destruct p as [p|].
    + apply andb_true_iff in H1. destruct H1 as (H1 & H3). apply negb_true_iff, N.eqb_neq in H1. split; [split; auto|exact I].
      intros i E. injection E as <-. apply existsb_exists in H3. destruct H3 as (n & Hn & E). apply N.eqb_eq in E. eauto.
    + apply negb_true_iff, N.eqb_neq in H1. split; [split; auto; intros i E; discriminate|exact I].
  - destruct (rt_step s t o); auto.
Qed.

Definition tr0 : tree := match tree_init 256 16384 0 with Some s => s | None => mktree 0 0 0 (fun _ => None) (fun _ => None) [] end.
(* three attributes: function (region), note (unaligned), iteration (as value), and one with process scope *)
Definition mk_attr_ops : list (N * rop) :=
  [(0, OTree (TGetChild 8 (VStr [102]) (Some 3))); (0, OTree (TGetChild 8 (VStr [110]) (Some 3)));
   (0, OTree (TGetChild 8 (VStr [105]) (Some 1))); (0, OTree (TGetChild 8 (VStr [112]) (Some 3)))].
Definition a_fun : attr := mkattr 12 20.
Definition a_note : attr := mkattr 13 (20 + 1024).
Definition a_iter : attr := mkattr 14 (20 + 1).
Definition a_proc_fun : attr := mkattr 15 12.
Lemma mk_history ops s xs : ops_okb (rt_init tr0) ops = true -> rt_run (rt_init tr0) ops = Some (s, xs) -> t_next (r_tree s) <? t_nblk (r_tree s) = true ->
  rt_history ops s xs.
Proof.
  intros H1 H2 H3. exists 256, 16384, 0, tr0. split; [repeat split; (reflexivity || discriminate)|]. split; [reflexivity|].
  split; [apply ops_okb_ok; auto|]. split; auto. apply N.ltb_lt; auto.
Qed.
Definition st (ops : list (N * rop)) : rt := match rt_run (rt_init tr0) ops with Some (s, _) => s | None => rt_init tr0 end.

(* non-vacuity of C18, C22 and C24: two threads, all attribute kinds, channel 7 active *)
Definition ex_ops1 : list (N * rop) := mk_attr_ops ++ [(0, OActivate 7); (0, OBegin a_fun (VStr [109])); (1, OBegin a_fun (VStr [120]))].
Definition ex_ops2 : list (N * rop) :=
  [(0, OBegin a_fun (VStr [97])); (1, OBegin a_note (VInt 5)); (0, OBegin a_note (VInt 1)); (0, OBegin a_iter (VInt 3));
   (1, OEnd a_fun); (0, OEnd a_iter); (0, OEnd a_note); (1, OEnd a_fun); (0, OEndCheck a_fun (VStr [97]))].
Example C18_ex : exists s xs, rt_reach (st ex_ops1) /\ rt_run (st ex_ops1) ex_ops2 = Some (s, xs) /\ ops_ok (st ex_ops1) ex_ops2 /\
  not_full (r_tree s) /\ nested (ops_of 0 ex_ops2) /\ Forall no_process (ops_of 0 ex_ops2) /\
  bb_regions (r_tree s) (r_tbb s 0) = [(12, VStr [109])] /\ bb_unaligned (r_tree s) (r_tbb s 1) = [(13, VInt 5)] /\
  xs = [ODone; ODone; ODone; ODone; ODone; ODone; ODone; OError; ODone] /\
  (forall a v, In (OBegin a v) (ops_of 0 ex_ops2) -> asvalue a = true -> rt_get (st ex_ops1) 0 a = None) /\
  received 7 0 (r_log s) = [(PreBegin, 12, VStr [109]); (PostBegin, 12, VStr [109]); (PreBegin, 12, VStr [97]); (PostBegin, 12, VStr [97]);
     (PreBegin, 13, VInt 1); (PostBegin, 13, VInt 1); (PreBegin, 14, VInt 3); (PostBegin, 14, VInt 3); (PreEnd, 14, VInt 3); (PreEnd, 13, VInt 1); (PreEnd, 12, VStr [97])].
Proof.
  eexists _, _. split; [eexists _, _; apply mk_history with (ops := ex_ops1); vm_compute; reflexivity|].
  split; [vm_compute; reflexivity|]. split; [apply ops_okb_ok; vm_compute; reflexivity|]. split; [vm_compute; reflexivity|].
  split.
  { change (ops_of 0 ex_ops2) with (OBegin a_fun (VStr [97]) :: [OBegin a_note (VInt 1); OBegin a_iter (VInt 3); OEnd a_iter; OEnd a_note] ++ OEndCheck a_fun (VStr [97]) :: []).
    apply ne_region; [reflexivity|auto| |constructor].
    change [OBegin a_note (VInt 1); OBegin a_iter (VInt 3); OEnd a_iter; OEnd a_note] with (OBegin a_note (VInt 1) :: [OBegin a_iter (VInt 3); OEnd a_iter] ++ OEnd a_note :: []).
    apply ne_region; [reflexivity|auto| |constructor].
    apply (ne_value a_iter (VInt 3) (OEnd a_iter) [] []); [reflexivity|auto|intros ? ? []|constructor|constructor]. }
  split. { repeat constructor; intros a E; injection E as <-; discriminate. }
  split; [vm_compute; reflexivity|]. split; [vm_compute; reflexivity|]. split; [reflexivity|]. split; [|vm_compute; reflexivity].
  intros a v Hin Ha. cbn in Hin. repeat (destruct Hin as [Hin|Hin]; [injection Hin as <- <-; try discriminate; vm_compute; reflexivity || discriminate|]).
  repeat (destruct Hin as [Hin|Hin]; [discriminate|]). destruct Hin.
Qed.

(* Limits of C18. 1: as-value attributes are not a stack: a nested begin overwrites the value,
   the first end removes it, the second is an error (get_blackboard_key/handle_begin) *)
Theorem C18_nested_value_refuted : exists s xs,
  rt_history (mk_attr_ops ++ [(0, OBegin a_iter (VInt 1)); (0, OBegin a_iter (VInt 2)); (0, OEnd a_iter); (0, OEnd a_iter)]) s xs /\
  nth_error xs 6 = Some ODone /\ nth_error xs 7 = Some OError.
Proof. eexists _, _. split; [apply mk_history; vm_compute; reflexivity|]. vm_compute. auto. Qed.
Print Assumptions C18_nested_value_refuted.
(* 2: set() on a region attribute between begin and end of another region moves it innermost;
   the region's end is then an error *)
Theorem C18_set_in_region_refuted : exists s xs,
  rt_history (mk_attr_ops ++ [(0, OTree (TGetChild 8 (VStr [113]) (Some 3))); (0, OBegin a_fun (VInt 1)); (0, OSet (mkattr 16 20) (VInt 2)); (0, OEnd a_fun)]) s xs /\
  nth_error xs 7 = Some OError.
Proof. eexists _, _. split; [apply mk_history; vm_compute; reflexivity|]. vm_compute. auto. Qed.
Print Assumptions C18_set_in_region_refuted.
(* 3: end() reads the process context and updates it in two separate critical sections
   (Caliper.cpp:996-1024); a begin of another thread in between is lost, and that thread's
   own end then fails *)
Theorem C22_process_end_race_refuted : exists s1 s2 s3,
  rt_step (st (mk_attr_ops ++ [(0, OBegin a_proc_fun (VInt 1)); (0, OBegin a_proc_fun (VInt 2))])) 1 (OBegin a_proc_fun (VInt 9)) = SOk s1 ODone /\
  end_commit s1 0 a_proc_fun (end_load (st (mk_attr_ops ++ [(0, OBegin a_proc_fun (VInt 1)); (0, OBegin a_proc_fun (VInt 2))])) 0 a_proc_fun) = SOk s2 ODone /\
  bb_regions (r_tree s1) (r_pbb s1) = [(15, VInt 1); (15, VInt 2); (15, VInt 9)] /\
  bb_regions (r_tree s2) (r_pbb s2) = [(15, VInt 1)] /\
  rt_step s2 1 (OEndCheck a_proc_fun (VInt 9)) = SOk s3 OError.
Proof. eexists _, _, _. split; [vm_compute; reflexivity|]. split; [vm_compute; reflexivity|]. split; [vm_compute; reflexivity|]. split; vm_compute; reflexivity. Qed.
Print Assumptions C22_process_end_race_refuted.
(* 4: the visibility of the shared region slot is fixed by the first attribute stored there
   (Blackboard::set): a hidden outer region hides visible inner regions from snapshots *)
Theorem C22_hidden_outer_region_refuted : exists s xs,
  rt_history (mk_attr_ops ++ [(0, OBegin (mkattr 15 (20 + 128)) (VInt 1)); (0, OBegin a_fun (VInt 2))]) s xs /\
  rt_get s 0 a_fun = Some (VInt 2) /\ rt_snapshot s 0 = [].
Proof. eexists _, _. split; [apply mk_history; vm_compute; reflexivity|]. vm_compute. auto. Qed.
Print Assumptions C22_hidden_outer_region_refuted.
(* 5: a task-scope attribute gets begin callbacks but no end callback (Caliper.cpp:946-1010) *)
Theorem C24_task_scope_end_refuted : exists s xs,
  rt_history (mk_attr_ops ++ [(0, OActivate 7); (0, OBegin (mkattr 15 24) (VInt 1)); (0, OEnd (mkattr 15 24))]) s xs /\
  received 7 0 (r_log s) = [(PreBegin, 15, VInt 1); (PostBegin, 15, VInt 1)].
Proof. eexists _, _. split; [apply mk_history; vm_compute; reflexivity|]. vm_compute. auto. Qed.
Print Assumptions C24_task_scope_end_refuted.
