(* C53: a run of the table formatter with two threads, and the manual's ORDER BY example *)
From Coq Require Import Strings.Ascii Strings.String Permutation Sorted.
From Verif Require Import Base VariantModel VariantSpec VariantOrderProofs NamesModel TextModel TreeModel CaliFileModel AggModel FilterModel FilterSpec FilterProofs RConfigModel FmtModel FmtProofs FmtProps.

Definition x_text (v : value) : bytes := match v with VStr s => s | VInt z => if (z <? 0)%Z then 45 :: dec (Z.to_N (- z)) else dec (Z.to_N z) | VUint n => dec n | _ => [] end.
Definition x_dparse (_ : bytes) : option N := None.
Definition t_fn : bytes := bs "function".  Definition t_lp : bytes := bs "loop".
Definition t_it : bytes := bs "iteration#mainloop".  Definition t_tm : bytes := bs "sum#time.inclusive.duration.ns".
Definition tdb : mdb := Eval vm_compute in
  let d := db_init in
  let d := snd (create_attribute d t_fn T_STRING 256) in let d := snd (create_attribute d t_lp T_STRING 256) in
  let d := snd (create_attribute d t_it T_INT 1) in snd (create_attribute d t_tm T_INT 65).
Definition aid (s : bytes) : N := match get_attr tdb s with Some a => a | None => 0 end.
(* main, main/mainloop, main/mainloop/foo *)
Definition tdb3 : mdb := Eval vm_compute in
  let main := (aid t_fn, VStr (bs "main")) in let loop := (aid t_lp, VStr (bs "mainloop")) in let foo := (aid t_fn, VStr (bs "foo")) in
  snd (make_tree_entry tdb [main; loop; foo] ROOT).
Definition nid (l : list (N * value)) : N := fst (make_tree_entry tdb3 l ROOT).
Definition n_main : N := Eval vm_compute in nid [(aid t_fn, VStr (bs "main"))].
Definition n_loop : N := Eval vm_compute in nid [(aid t_fn, VStr (bs "main")); (aid t_lp, VStr (bs "mainloop"))].
Definition n_foo : N := Eval vm_compute in nid [(aid t_fn, VStr (bs "main")); (aid t_lp, VStr (bs "mainloop")); (aid t_fn, VStr (bs "foo"))].
Definition tr (n : N) (i : option Z) (t : Z) : list entry := [ERef n] ++ match i with Some i => [EImm (aid t_it) (VInt i)] | None => [] end ++ [EImm (aid t_tm) (VInt t)].
Definition t_recs : list (list entry) := Eval vm_compute in
  [tr n_foo (Some 2) 600; tr n_loop (Some 1) 2000; tr n_main None 100000; tr n_loop (Some 2) 1000; tr n_loop None 80000; tr n_foo (Some 1) 3500; tr n_loop (Some 0) 1500; tr n_foo (Some 0) 2500]%Z.
Definition t_spec : tspec := mkts [(t_tm, SDesc); (t_it, SAsc)] None [(t_tm, bs "Time")] 60.
(* one thread adds a record *)
Definition add_cols (s : tstate) (rec : list entry) : tstate :=
  let cols := update_columns x_text tdb3 t_spec (tb_cols s) rec in let row := map (col_cell x_text tdb3 rec) cols in
  mktb cols (tb_rows s) ((row, map (fun p => Nat.max (co_width (fst p)) (length (snd p))) (combine cols row)) :: tb_a s) (tb_b s).
Definition add_row (s : tstate) (k : nat) : option tstate :=
  match skipn k (tb_a s) with (row, ws) :: r => Some (mktb (tb_cols s) (if forallb is_nil row then tb_rows s else tb_rows s ++ [row]) (firstn k (tb_a s) ++ r) (ws :: tb_b s)) | [] => None end.
Definition add_width (s : tstate) (k : nat) : option tstate :=
  match skipn k (tb_b s) with ws :: r => Some (mktb (widen_all (tb_cols s) ws) (tb_rows s) (tb_a s) (firstn k (tb_b s) ++ r)) | [] => None end.
Inductive tact := ACols (r : list entry) | ARow (k : nat) | AWidth (k : nat).
Fixpoint texec (s : tstate) (l : list tact) : option tstate :=
  match l with
  | [] => Some s
  | ACols r :: t => texec (add_cols s r) t
  | ARow k :: t => match add_row s k with Some s' => texec s' t | None => None end
  | AWidth k :: t => match add_width s k with Some s' => texec s' t | None => None end
  end.
Definition tadded (l : list tact) : list (list entry) := flat_map (fun a => match a with ACols r => [r] | _ => [] end) l.
Lemma texec_reach : forall l recs s s', treach x_text tdb3 t_spec recs s -> texec s l = Some s' -> treach x_text tdb3 t_spec (recs ++ tadded l) s'.
Proof.
  induction l as [|a l IH]; intros recs s s' H E; cbn [texec] in E; [injection E as <-; unfold tadded; cbn [flat_map]; rewrite app_nil_r; auto|]. destruct a as [r|k|k]; unfold tadded; cbn [flat_map]; fold (tadded l).
  - rewrite app_assoc. apply (IH _ (add_cols s r)); auto. eapply tr_add; [exact H|]. apply st_cols.
  - destruct (add_row s k) as [s1|] eqn:E1; [|discriminate]. cbn [app]. apply (IH _ s1); auto. eapply tr_tau; [exact H|]. unfold add_row in E1. destruct (skipn k (tb_a s)) as [|(row, ws) r] eqn:E2; [discriminate|]. injection E1 as <-. apply st_row. rewrite <- E2. symmetry. apply firstn_skipn.
  - destruct (add_width s k) as [s1|] eqn:E1; [|discriminate]. cbn [app]. apply (IH _ s1); auto. eapply tr_tau; [exact H|]. unfold add_width in E1. destruct (skipn k (tb_b s)) as [|ws r] eqn:E2; [discriminate|]. injection E1 as <-. apply st_width. rewrite <- E2. symmetry. apply firstn_skipn.
Qed.
(* two threads, each adding every second record, with overlapping critical sections *)
Fixpoint weave (l : list (list entry)) : list tact :=
  match l with a :: b :: r => [ACols a; ACols b; ARow 1; ARow 0; AWidth 1; AWidth 0] ++ weave r | [a] => [ACols a; ARow 0; AWidth 0] | [] => [] end.
Definition t_final : option tstate := Eval vm_compute in texec (t_init t_spec) (weave t_recs).
Definition t_out : bytes := match t_final with Some s => tflush x_dparse tdb3 t_spec s | None => [] end.
Definition b2s (l : bytes) : string := fold_right (fun c s => String (ascii_of_N c) s) EmptyString l.
(* the text in doc/sphinx/calql.rst (the manual pads the last column further): the last ORDER BY attribute counts most *)
Definition t_expected : bytes := bs
"function loop     iteration#mainloop Time   
main                                 100000 
main     mainloop                     80000 
main/foo mainloop                  0   2500 
main     mainloop                  0   1500 
main/foo mainloop                  1   3500 
main     mainloop                  1   2000 
main     mainloop                  2   1000 
main/foo mainloop                  2    600 
".
Definition smallb (v : value) : bool := match v with VInv => true | VInt z => (-1000000000 <=? z)%Z && (z <=? 1000000000)%Z | _ => false end.
Lemma smallb_ok a b : smallb a = true -> smallb b = true -> in_range a /\ not_nan a /\ cmp_exact a b.
Proof. destruct a, b; cbn [smallb in_range not_nan cmp_exact]; intros; try discriminate; repeat split; try exact Logic.I; lia. Qed.
Definition keysb (cols : list column) (rows : list (list bytes)) : bool :=
  forallb (fun i => match nth_error cols i with Some col => is_snone (co_ord col) || forallb (fun r => smallb (colkey x_dparse tdb3 i col r)) rows | None => true end) (seq 0 (length cols)).
Lemma keysb_ok cols rows : keysb cols rows = true -> keys_ok x_dparse tdb3 cols 0 rows.
Proof.
  intros H i col E Ho l r Hl Hr. unfold keysb in H. rewrite forallb_forall in H. specialize (H i). assert (Hi : In i (seq 0 (length cols))) by (apply in_seq; split; [lia|]; apply nth_error_Some; rewrite E; discriminate). specialize (H Hi). rewrite E in H.
  apply orb_true_iff in H. destruct H as [H|H]; [destruct (co_ord col); try discriminate; congruence|]. rewrite forallb_forall in H. apply smallb_ok; apply H; auto.
Qed.
Example C53_manual_example : exists s, treach x_text tdb3 t_spec t_recs s /\ quiescent s /\ sort_ok t_spec /\ keys_ok x_dparse tdb3 (tb_cols s) 0 (tb_rows s) /\ tflush x_dparse tdb3 t_spec s = t_expected.
Proof.
  assert (E : exists s, t_final = Some s) by (eexists; reflexivity). destruct E as (s & E). exists s.
  assert (R : treach x_text tdb3 t_spec ([] ++ tadded (weave t_recs)) s) by (apply (texec_reach _ _ (t_init t_spec)); [constructor|rewrite <- E; vm_compute; reflexivity]).
  split; [exact R|]. unfold t_final in E. injection E as <-.
  split; [split; reflexivity|]. split; [repeat constructor; discriminate|]. split; [apply keysb_ok; vm_compute; reflexivity|]. vm_compute. reflexivity.
Qed.
Print Assumptions C53_rows_complete. Print Assumptions C53_cell_values. Print Assumptions C53_select_columns. Print Assumptions C53_auto_columns. Print Assumptions C53_layout. Print Assumptions C53_sorted.
