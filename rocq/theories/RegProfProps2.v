(* C50, continued: the value of a record is that of the first entry for the metric *)
From Verif Require Import Base VariantModel VariantSpec TreeModel CaliFileModel FloatModel ArithSpec AggModel RegProfModel.
Open Scope N_scope.
Theorem C50_metric d m rec v : metric_of d m rec = Some v <-> exists pre e post, rec = pre ++ e :: post /\ e_attr d e = m /\ v = v_f64 (e_val d e) /\ Forall (fun x => e_attr d x <> m) pre.
Proof.
  unfold metric_of. induction rec as [|x rec IH]; cbn [find].
  - split; [discriminate|]. intros (pre & e & post & E & _). destruct pre; discriminate.
  - destruct (N.eqb_spec (e_attr d x) m) as [Hx|Hx].
    + split.
      * intro E. injection E as <-. exists [], x, rec. auto.
      * intros ([|y pre] & e & post & E & Ha & -> & Hp); cbn [app] in E; injection E as <- E; [reflexivity|]. inversion Hp; contradiction.
    + rewrite IH. split.
      * intros (pre & e & post & -> & Ha & -> & Hp). exists (x :: pre), e, post. auto.
      * intros ([|y pre] & e & post & E & Ha & -> & Hp); cbn [app] in E; injection E as <- E; [contradiction|]. inversion Hp; subst. exists pre, e, post. auto.
Qed.
