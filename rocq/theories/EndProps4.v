(* C81: the inclusive report of the example program *)
From Verif Require Import Base VariantModel VariantSpec NamesModel NamesProps TextModel TextProofs TextProofs2 TreeModel TreeSpec TreeProofs TreeProofs2 RuntimeModel RuntimeSpec RuntimeProofs RuntimeProofs2 RuntimeProps RuntimeProps3 RuntimeProps4.
From Verif Require Import ArithModel RtAggModel RtAggSpec RFilterModel EventModel TimerModel ProfModel ProfSpec ProfProofs2 ProfProofs5 ProfProps EndProofs.
From Verif Require Import CaliFileModel CaliFileProofs CaliFileProofs2 CaliFileProofs3 CaliFileProofs4 CaliFileProofs5 CaliFileProps ArithSpec AggModel AggSpec AggSpec2 AggProofs2 AggProofs3 FilterModel QFileSpec QFileModel QFileProofs6 QFileProps QFileProps2 EndSpec EndProofs2 EndProps EndProps2.
Open Scope N_scope.

Lemma y_query_ok2 : query_ok no_fmt no_parse y_dict (inclusive_query y_sum) [y_file] y_W.
Proof.
  pose proof y_query_ok as [Q1 Q2 Q3 Q4 Q5 Q6]. split; [exact Q1|exact Q2|exact Q3| |exact Q5|].
  - intros s Hin. vm_compute in Hin. destruct Hin as [<-|[<-|[]]]; vm_compute; reflexivity.
  - vm_compute. reflexivity.
Qed.
(* the program, profile and file of C81_case: 28 units were spent in x itself, 22 in m inside x; inclusive 50 and 22 *)
Example C81_inclusive_case : query_ok no_fmt no_parse y_dict (inclusive_query y_sum) [y_file] y_W /\
  exists d g out d', aggregate_files no_parse (fun _ _ => VInv) [] (inclusive_query y_sum) [text_of no_fmt y_file] = Some (d, g, false) /\ flush (inclusive_query y_sum) (d, g) = Some (out, d') /\
    map (fun es => (match es with [ERef i; EImm a v; EImm b w] => (pathf 30 (dnode d') i, if match get_attr d' (p_sum ++ y_sum), get_attr d' (p_incl ++ y_sum) with Some a', Some b' => (a =? a') && (b =? b') | _, _ => false end then Some (v, w) else None) | _ => (None, None) end)) out =
      [(Some [(y_fun, VStr [120])], Some (VUint 28, VUint 50)); (Some [(y_fun, VStr [109]); (y_fun, VStr [120])], Some (VUint 22, VUint 22))].
Proof.
  split; [exact y_query_ok2|].
  destruct (aggregate_files no_parse (fun _ _ => VInv) [] (inclusive_query y_sum) [text_of no_fmt y_file]) as [((d, g), e)|] eqn:E; [|vm_compute in E; discriminate E].
  assert (C : match aggregate_files no_parse (fun _ _ => VInv) [] (inclusive_query y_sum) [text_of no_fmt y_file] with Some (d, g, e) => e = false /\ match flush (inclusive_query y_sum) (d, g) with Some (out, d') =>
    map (fun es => (match es with [ERef i; EImm a v; EImm b w] => (pathf 30 (dnode d') i, if match get_attr d' (p_sum ++ y_sum), get_attr d' (p_incl ++ y_sum) with Some a', Some b' => (a =? a') && (b =? b') | _, _ => false end then Some (v, w) else None) | _ => (None, None) end)) out =
      [(Some [(y_fun, VStr [120])], Some (VUint 28, VUint 50)); (Some [(y_fun, VStr [109]); (y_fun, VStr [120])], Some (VUint 22, VUint 22))] | None => False end | None => False end) by (vm_compute; repeat split; reflexivity).
  rewrite E in C. destruct C as (-> & C). exists d, g. destruct (flush (inclusive_query y_sum) (d, g)) as [(out, d')|] eqn:F; [|destruct C]. exists out, d'. split; [reflexivity|]. split; [reflexivity|exact C].
Qed.
