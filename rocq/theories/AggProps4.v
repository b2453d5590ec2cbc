(* C32, continued: the hypotheses for minima and maxima of doubles are met; the two zeros *)
From Verif Require Import Base VariantModel VariantSpec NamesModel NamesProps TextModel TreeModel TreeProofs CaliFileModel CaliFileProofs2 CaliFileProofs3 CaliFileProofs4 FloatModel ArithSpec ArithProofs AggModel AggSpec AggSpec2 AggSpec3 AggProofs AggProofs2 AggProofs3 AggProofs4 AggProofs5 AggProofs6 AggProofs7 AggProofs8 AggProofs9 AggProofs10 AggProofs11 AggProofs12 AggProps AggProps2 AggProps3.
From Coq Require Import Permutation Sorted.
Open Scope N_scope.

Definition mdq : qspec := mkq [] false true [CCount; CMin xn false; CMax xn false].
Definition recsDA : list (list entry) := [[ERef n_m; xdb 10]; [ERef n_b; xdb 5]].
Definition recsDB : list (list entry) := [[xdb 7; ERef n_b]; [ERef n_m; xdb (-2)]; [ERef n_f]].
Definition outDA := Eval vm_compute in fo mdq exd recsDA.
Definition dbDA := Eval vm_compute in fd mdq exd recsDA.
Definition outDB := Eval vm_compute in fo mdq dbDA recsDB.
Definition dbDB := Eval vm_compute in fd mdq dbDA recsDB.
Definition outDM := Eval vm_compute in fo mdq dbDB (outDA ++ outDB).
Definition dbDM := Eval vm_compute in fd mdq dbDB (outDA ++ outDB).
Definition outDT := Eval vm_compute in fo mdq exd (recsDA ++ recsDB).
Definition dbDT := Eval vm_compute in fd mdq exd (recsDA ++ recsDB).
Definition dbls : list N := Eval vm_compute in map d_of_Z [10; 5; 7; -2]%Z.
Lemma dbls_cmp names : map (vals exd names) (recsDA ++ recsDB) = map (map VDouble) [[nth 0 dbls 0]; [nth 1 dbls 0]; [nth 2 dbls 0]; [nth 3 dbls 0]; []] -> comparable_doubles (flat_map (vals exd names) (recsDA ++ recsDB)).
Proof.
  intro E. exists dbls. rewrite flat_map_concat_map, E. split; [reflexivity|]. split.
  - unfold dbls. constructor; [vm_compute; discriminate|constructor; [vm_compute; discriminate|constructor; [vm_compute; discriminate|constructor; [vm_compute; discriminate|constructor]]]].
  - intros a b Ha Hb. unfold dbls in Ha, Hb. destruct Ha as [<-|[<-|[<-|[<-|[]]]]], Hb as [<-|[<-|[<-|[<-|[]]]]]; intro H; vm_compute in H; first [discriminate H|reflexivity].
Qed.
(* records with double values in two parts: all hypotheses of C32_order_independent (for the whole) and of
   C32_merge_partial hold, none of the min / max values is an integer, and there are three groups *)
Example C32_example_doubles : wf exd /\ Forall (Forall (entry_ok exd)) (recsDA ++ recsDB) /\ targets_known exd mdq /\ Forall (order_free exd (recsDA ++ recsDB)) (q_ker mdq) /\ Forall (merge_free exd (recsDA ++ recsDB)) (q_ker mdq) /\ separated dbDM mdq (recsDA ++ recsDB) /\
  aggregated mdq recsDA outDA dbDA /\ grow exd dbDA /\ aggregated mdq recsDB outDB dbDB /\ grow exd dbDB /\ aggregated mdq (outDA ++ outDB) outDM dbDM /\ grow dbDA dbDM /\ grow dbDB dbDM /\
  aggregated mdq (recsDA ++ recsDB) outDT dbDT /\ grow exd dbDT /\ length outDM = 3%nat /\
  get_attr dbDM (p_min ++ xn) <> None /\ In (VDouble (d_of_Z (-2))) (flat_map (flat_map (fun e => match e with EImm a v => if match get_attr dbDM (p_min ++ xn) with Some b => a =? b | None => false end then [v] else [] | _ => [] end)) outDM).
Proof.
  destruct exd_wf as (W0 & S0).
  assert (HA := agg_at mdq exd recsDA W0 S0). assert (EA : flush mdq (aggregate mdq exd recsDA) = Some (outDA, dbDA)) by (vm_compute; reflexivity). rewrite EA in HA. destruct HA as (AA & GA & WA); [vm_compute; reflexivity|vm_compute; reflexivity|unfold size_ok; vm_compute; discriminate|].
  assert (HB := agg_at mdq dbDA recsDB WA). assert (EB : flush mdq (aggregate mdq dbDA recsDB) = Some (outDB, dbDB)) by (vm_compute; reflexivity). rewrite EB in HB. destruct HB as (AB & GB & WB); [unfold size_ok; vm_compute; discriminate|vm_compute; reflexivity|vm_compute; reflexivity|unfold size_ok; vm_compute; discriminate|].
  assert (HM := agg_at mdq dbDB (outDA ++ outDB) WB). assert (EM : flush mdq (aggregate mdq dbDB (outDA ++ outDB)) = Some (outDM, dbDM)) by (vm_compute; reflexivity). rewrite EM in HM. destruct HM as (AM & GM & WM); [unfold size_ok; vm_compute; discriminate|vm_compute; reflexivity|vm_compute; reflexivity|unfold size_ok; vm_compute; discriminate|].
  assert (HT := agg_at mdq exd (recsDA ++ recsDB) W0 S0). assert (ET : flush mdq (aggregate mdq exd (recsDA ++ recsDB)) = Some (outDT, dbDT)) by (vm_compute; reflexivity). rewrite ET in HT. destruct HT as (AT & GT & WT); [vm_compute; reflexivity|vm_compute; reflexivity|unfold size_ok; vm_compute; discriminate|].
  split; [exact W0|]. split; [apply recs_okb; [apply W0|exact S0|vm_compute; reflexivity]|]. split; [apply known_b_ok; vm_compute; reflexivity|].
  assert (OMin : order_free exd (recsDA ++ recsDB) (CMin xn false)) by (right; cbn [sel]; apply dbls_cmp; vm_compute; reflexivity).
  assert (OMax : order_free exd (recsDA ++ recsDB) (CMax xn false)) by (right; cbn [sel]; apply dbls_cmp; vm_compute; reflexivity).
  split; [cbn [q_ker mdq]; constructor; [left; exact Logic.I|constructor; [exact OMin|constructor; [exact OMax|constructor]]]|].
  split.
  { cbn [q_ker mdq]. constructor; [left|constructor; [right; exact OMin|constructor; [right; exact OMax|constructor]]]. cbn [mergeable].
    assert (E : map (counts_for exd CCount) (recsDA ++ recsDB) = [1; 1; 1; 1; 1]) by (vm_compute; reflexivity). split; [|rewrite E; unfold u64_ok; vm_compute; reflexivity].
    apply (proj1 (map_forall (fun n => 0 < n) (counts_for exd CCount) (recsDA ++ recsDB))). rewrite E. apply Forall_forall. intros n Hn. assert (n = 1) by (cbn in Hn; intuition congruence). subst n. reflexivity. }
  split; [apply sep_b_ok; [apply WM|unfold size_ok; vm_compute; discriminate|reflexivity|vm_compute; reflexivity]|].
  split; [exact AA|]. split; [exact GA|]. split; [exact AB|]. split; [exact (grow_trans _ _ _ GA GB)|]. split; [exact AM|]. split; [exact (grow_trans _ _ _ GB GM)|]. split; [exact GM|]. split; [exact AT|]. split; [exact GT|]. split; [reflexivity|].
  split; [vm_compute; discriminate|]. vm_compute. auto 20.
Qed.
(* min keeps the first of two equal values: the minimum of 0.0 and -0.0 depends on the order of the records *)
Definition zq : qspec := mkq [] false false [CMin xn false].
Definition negzero : N := 9223372036854775808.
Definition zrecs : list (list entry) := [[EImm xa (VDouble 0)]; [EImm xa (VDouble negzero)]].
Theorem C32_zero_order_refuted : exists q recs1 recs2 out1 out2 d1 d2 a v1 v2, Permutation recs1 recs2 /\ aggregated q recs1 out1 d1 /\ grow exd d1 /\ aggregated q recs2 out2 d2 /\ grow exd d2 /\ d1 = d2 /\
  get_attr d1 (p_min ++ xn) = Some a /\ out1 = [[EImm a (VDouble v1)]] /\ out2 = [[EImm a (VDouble v2)]] /\ v1 <> v2.
Proof.
  exists zq, zrecs, (rev zrecs), (fo zq exd zrecs), (fo zq exd (rev zrecs)), (fd zq exd zrecs), (fd zq exd (rev zrecs)), 23, 0, negzero.
  assert (H1 := agg_by_compute zq zrecs). assert (E1 : flush zq (aggregate zq exd zrecs) = Some (fo zq exd zrecs, fd zq exd zrecs)) by (vm_compute; reflexivity). rewrite E1 in H1.
  assert (H2 := agg_by_compute zq (rev zrecs)). assert (E2 : flush zq (aggregate zq exd (rev zrecs)) = Some (fo zq exd (rev zrecs), fd zq exd (rev zrecs))) by (vm_compute; reflexivity). rewrite E2 in H2.
  destruct H1 as (A1 & G1); [vm_compute; reflexivity|vm_compute; reflexivity|unfold size_ok; vm_compute; discriminate|].
  destruct H2 as (A2 & G2); [vm_compute; reflexivity|vm_compute; reflexivity|unfold size_ok; vm_compute; discriminate|].
  split; [apply Permutation_rev|]. split; [exact A1|]. split; [exact G1|]. split; [exact A2|]. split; [exact G2|]. split; [vm_compute; reflexivity|]. split; [vm_compute; reflexivity|]. split; [vm_compute; reflexivity|]. split; [vm_compute; reflexivity|]. discriminate.
Qed.
