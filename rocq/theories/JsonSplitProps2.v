(* C56: examples *)
From Coq Require Import Strings.Ascii Strings.String Sorted.
From Verif Require Import Base VariantModel VariantSpec NamesModel NamesProps TextModel TextProofs TreeModel CaliFileModel AggModel FilterModel RConfigModel FmtModel TreeFmtProps2 JsonSpec JsonModel JsonOutSpec JsonProofs JsonProofs2 JsonProps JsonProps2 JsonSplitModel JsonSplitSpec JsonSplitProofs JsonSplitProps.
Open Scope N_scope.

Definition sq : sspec := mkss false true [e_tm] [(e_tm, bs "Time")].
Definition srecs : list (list entry) := Eval vm_compute in erecs ++ [[EImm (ea e_tm) (VInt 3)]; er ["main"; "a"]%string None].
Definition jlab (l : string) (p : list (bytes * json)) : json := JObj ([(bs "label", JStr (bs l)); (bs "column", JStr (bs "path"))] ++ p).
Definition jpar (n : string) : list (bytes * json) := [(bs "parent", JNum (bs n))].
Example C56_example : jread (split_output (to_string no_dtext) edb sq [] srecs) = Some (JObj [
  (bs "data", JArr [JArr [JNum (bs "50"); JNum (bs "2")]; JArr [JNum (bs "20"); JNum (bs "3")]; JArr [JNum (bs "5"); JNum (bs "0")]; JArr [JNum (bs "10"); JNum (bs "1")]; JArr [JNum (bs "30"); JNum (bs "3")];
                    JArr [JNum (bs "3"); JNull]; JArr [JNull; JNum (bs "4")]]);
  (bs "columns", JArr [JStr (bs "Time"); JStr (bs "path")]);
  (bs "column_metadata", JArr [JObj [(bs "is_value", JBool true)]; JObj [(bs "is_value", JBool false)]]);
  (bs "nodes", JArr [jlab "main" []; jlab "foo" (jpar "0"); jlab "inner" (jpar "1"); jlab "bar" (jpar "0"); jlab "a" (jpar "0")])]).
Proof. vm_compute. reflexivity. Qed.
Example C56_example_conditions : no_meta edb sq srecs /\ numbers_ok (to_string no_dtext) edb srecs /\ paths_ok (to_string no_dtext) edb sq srecs.
Proof.
  split; [|split].
  - assert (E : forallb (fun rec => forallb (fun e => match e with EImm a v => forallb (fun c => negb (sc_hier c) || forallb (fun x => negb (existsb (N.eqb (fst x)) (sc_attrs c))) (node_path edb a)) (columns edb sq) | _ => true end) rec) srecs = true) by (vm_compute; reflexivity).
    intros rec a v c x Hr Ha Hc Hh Hx Hi. rewrite forallb_forall in E. specialize (E rec Hr). rewrite forallb_forall in E. specialize (E _ Ha). cbv beta iota in E. rewrite forallb_forall in E. specialize (E c Hc). rewrite Hh in E. cbn [negb orb] in E. rewrite forallb_forall in E. specialize (E x Hx).
    apply negb_true_iff in E. assert (K : existsb (N.eqb (fst x)) (sc_attrs c) = true) by (apply existsb_exists; exists (fst x); split; [exact Hi|apply N.eqb_refl]). congruence.
  - assert (E : forallb (fun rec => forallb (fun e => negb (unquoted_type edb (ent_attr edb e)) || match ent_val edb e with VInt z => (-1000 <=? z)%Z && (z <=? 1000)%Z | _ => false end) rec) srecs = true) by (vm_compute; reflexivity).
    intros rec a v Hr Hf Hu. unfold first_value in Hf. destruct (find (fun e => ent_attr edb e =? a) rec) as [e|] eqn:Ef; [|discriminate]. cbn [option_map] in Hf. injection Hf as <-. apply find_some in Ef. destruct Ef as (Hi & He). apply N.eqb_eq in He. subst a.
    rewrite forallb_forall in E. specialize (E rec Hr). rewrite forallb_forall in E. specialize (E e Hi). rewrite Hu in E. cbn [negb orb] in E. destruct (ent_val edb e) as [|s|z|n|s|n|b|b|n|n]; try discriminate.
    assert (Hz : s64_ok z) by (unfold s64_ok; lia). destruct (C55_integers no_dtext (VInt z) z) as (Hs & Hj & _); [left; auto|]. destruct Hs as [Hs|[Hs|Hs]]; [| |exact Hs]; exfalso; rewrite Hs in Hj; discriminate Hj.
  - unfold paths_ok. assert (E : (nsum (map (rsize (to_string no_dtext) edb sq) srecs) <= 100)%nat) by (apply Nat.leb_le; vm_compute; reflexivity). unfold W64. lia.
Qed.
(* Findings.  Without SELECT there is a column for the internal attribute cali.attribute.name, and its cells hold the
   names of the attributes of the record's single values: here a record with just a time value. *)
Theorem C56_internal_column_refuted : exists recs c1 c2 c3 m, recs = [[EImm (ea e_tm) (VInt 3)]] /\
  jread (split_output (to_string no_dtext) edb (mkss true true [] []) [] recs) = Some (JObj [
    (bs "data", JArr [JArr [c1; c2; JNum (bs "0"); JNum (bs "3"); c3]]);
    (bs "columns", JArr [JStr (bs "attribute.alias"); JStr (bs "attribute.unit"); JStr (bs "cali.attribute.name"); JStr (bs "time"); JStr (bs "path")]);
    (bs "column_metadata", m);
    (bs "nodes", JArr [JObj [(bs "label", JStr (bs "time")); (bs "column", JStr (bs "cali.attribute.name"))]])]).
Proof. eexists. eexists. eexists. eexists. eexists. split; [reflexivity|]. vm_compute. reflexivity. Qed.
(* Region columns share nodes with equal labels; the node then names only one of the columns. *)
Definition ydb0 : mdb := Eval vm_compute in snd (create_attribute (snd (create_attribute db_init (bs "kernel") T_STRING 0)) (bs "phase") T_STRING 0).
Definition ya (s : string) : N := match get_attr ydb0 (bs s) with Some a => a | None => 0 end.
Definition ydb : mdb := Eval vm_compute in snd (make_tree_entry ydb0 [(ya "kernel", VStr (bs "init")); (ya "phase", VStr (bs "init"))] ROOT).
Definition yn : N := Eval vm_compute in fst (make_tree_entry ydb [(ya "kernel", VStr (bs "init")); (ya "phase", VStr (bs "init"))] ROOT).
Theorem C56_shared_nodes_refuted : exists recs m, recs = [[ERef yn]] /\
  jread (split_output (to_string no_dtext) ydb (mkss false false [bs "kernel"; bs "phase"] []) [] recs) = Some (JObj [
    (bs "data", JArr [JArr [JNum (bs "0"); JNum (bs "0")]]);
    (bs "columns", JArr [JStr (bs "kernel"); JStr (bs "phase")]);
    (bs "column_metadata", m);
    (bs "nodes", JArr [JObj [(bs "label", JStr (bs "init")); (bs "column", JStr (bs "kernel"))]])]).
Proof. eexists. eexists. split; [reflexivity|]. vm_compute. reflexivity. Qed.
