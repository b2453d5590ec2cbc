(* Proofs: invariants of the concurrent writer *)
From Verif Require Import Base VariantModel VariantSpec NamesModel TextModel TreeModel CaliFileModel CaliFileProofs CaliFileProofs2 CaliFileProofs3 CaliFileProofs5 CaliFileProps CwModel CwSpec.

Lemma upd_same {A} (f : N -> A) t x : upd f t x t = x.
Proof. unfold upd. rewrite N.eqb_refl. reflexivity. Qed.
Lemma upd_other {A} (f : N -> A) t x u : u <> t -> upd f t x u = f u.
Proof. unfold upd. intro H. destruct (N.eqb_spec u t); [congruence|reflexivity]. Qed.
Lemma lines_snoc s t l db w td : cw_lines (mkcw db w (cw_out s ++ [(t, l)]) td) = cw_lines s ++ [l].
Proof. unfold cw_lines. cbn [cw_out]. rewrite map_app. reflexivity. Qed.

(* what remains to be done by a thread is consistent: every statement refers to nodes that are in
   the file or that the statements before it will put there *)
Section Todo.
Variable db : N -> option tnode.
Fixpoint todo_ok (K : N -> Prop) (l : list stmt) : Prop :=
  match l with
  | [] => True
  | SNode id :: r => (id < 11 \/ db id <> None) /\ todo_ok (fun x => K x \/ x = id) r
  | SLook id :: r => 11 <= id /\ db id <> None /\ todo_ok (fun x => K x \/ x = id) r
  | SEmit n :: r => 11 <= n_id n /\ db (n_id n) = Some n /\ K (n_attr n) /\ (forall p, n_par n = Some p -> p = INV_ID \/ K p) /\ todo_ok (fun x => K x \/ x = n_id n) r
  | SMark id :: r => 11 <= id /\ K id /\ todo_ok K r
  | SRec _ rec :: r => (forall e, In e rec -> K (entry_node e)) /\ todo_ok K r
  end.
Lemma todo_mono l : forall (K K' : N -> Prop), (forall x, K x -> K' x) -> todo_ok K l -> todo_ok K' l.
Proof.
  induction l as [|[id|id|n|id|g rec] l IH]; intros K K' H T; cbn [todo_ok] in *; auto.
  - destruct T as (T1 & T2). split; auto. eapply IH; [|exact T2]. intros x [X|X]; auto.
  - destruct T as (T1 & T2 & T3). split; auto. split; auto. eapply IH; [|exact T3]. intros x [X|X]; auto.
  - destruct T as (T1 & T2 & T3 & T4 & T5). split; auto. split; auto. split; auto. split; [intros p Hp; destruct (T4 p Hp); auto|]. eapply IH; [|exact T5]. intros x [X|X]; auto.
  - destruct T as (T1 & T2 & T3). split; auto. split; auto. eapply IH; eauto.
  - destruct T as (T1 & T2). split; auto. eapply IH; eauto.
Qed.
End Todo.
Lemma todo_db db db' l : part_of db db' -> forall K, todo_ok db K l -> todo_ok db' K l.
Proof.
  intros Hp. assert (Q : forall i, db i <> None -> db' i <> None). { intros i H. destruct (db i) as [n|] eqn:E; [rewrite (Hp i n E); discriminate|congruence]. }
  induction l as [|[id|id|n|id|g rec] l IH]; intros K T; cbn [todo_ok] in *; auto.
  - destruct T as (T1 & T2). split; [destruct T1; auto|auto].
  - destruct T as (T1 & T2 & T3). auto.
  - destruct T as (T1 & T2 & T3 & T4 & T5). auto 10.
  - destruct T as (T1 & T2 & T3). auto.
  - destruct T as (T1 & T2). auto.
Qed.
Lemma todo_call db K g rec : known_entries db rec -> todo_ok db K (call_stmts g rec).
Proof.
  intro H. unfold call_stmts. assert (G : forall l K, (forall e, In e l -> db (entry_node e) <> None) -> (forall e, In e rec -> In e l \/ K (entry_node e)) -> todo_ok db K (map (fun e => SNode (entry_node e)) l ++ [SRec g rec])).
  { clear. induction l as [|e l IH]; intros K H1 H2; cbn [map app todo_ok].
    - split; auto. intros e He. destruct (H2 e He) as [[]|]; auto.
    - split; [right; apply H1; left; auto|]. apply IH; [intros; apply H1; right; auto|]. intros x Hx. destruct (H2 x Hx) as [[<-|Q]|Q]; auto. }
  apply G; auto.
Qed.

Record inv (src : N -> option tnode) (s : cw) : Prop := mkinv {
  iv_part : part_of (cw_db s) src;
  iv_comp : complete (cw_db s);
  iv_wr : forall i, In i (cw_written s) -> In i (wids (cw_lines s));
  iv_node : forall n, In (WNode n) (cw_lines s) -> 11 <= n_id n /\ cw_db s (n_id n) = Some n;
  iv_cl : rclosed (cw_lines s);
  iv_todo : forall t, todo_ok (cw_db s) (known_id (cw_lines s)) (cw_todo s t) }.
Lemma known_snoc ls l x : known_id ls x -> known_id (ls ++ [l]) x.
Proof. intros [H|H]; [left; auto|right]. rewrite wids_app, in_app_iff. auto. Qed.
Lemma inv_set src s t l : inv src s -> todo_ok (cw_db s) (known_id (cw_lines s)) l -> inv src (set_todo s t l).
Proof.
  intros [A B C D F G] H. constructor; auto. intro u. cbn [set_todo cw_todo cw_db]. destruct (N.eq_dec u t) as [->|Hne]; [rewrite upd_same; exact H|rewrite upd_other by auto; apply G].
Qed.
Lemma inv_exec src s t s' : (forall i n, src i = Some n -> 11 <= i -> n_id n = i) -> inv src s -> cw_exec s t = Some s' -> inv src s'.
Proof.
  intros Hid Hi H. unfold cw_exec in H. pose proof (iv_todo _ _ Hi t) as T. destruct (cw_todo s t) as [|[id|id|n|id|g rec] r] eqn:Et; [discriminate| | | | |]; cbn [todo_ok] in T.
  - destruct T as (T1 & T2).
    assert (Skip : known_id (cw_lines s) id -> inv src (set_todo s t r)).
    { intro K. apply inv_set; auto. eapply todo_mono; [|exact T2]. intros x [X| ->]; auto. }
    destruct (N.ltb_spec id 11); [injection H as <-; apply Skip; left; auto|].
    destruct (mem id (cw_written s)) eqn:Em; injection H as <-; [apply Skip; right; apply (iv_wr _ _ Hi); apply mem_in; auto|].
    apply inv_set; auto. cbn [todo_ok]. destruct T1; [lia|auto].
  - destruct T as (T1 & T2 & T3). destruct (cw_db s id) as [n|] eqn:En; [|congruence]. injection H as <-. apply inv_set; auto.
    destruct (iv_comp _ _ Hi id n En T1) as (C1 & C2). pose proof (Hid id n (iv_part _ _ Hi _ _ En) T1) as Eid.
    assert (Rest : forall K : N -> Prop, (forall x, known_id (cw_lines s) x -> K x) -> K (n_attr n) -> (forall p, n_par n = Some p -> p = INV_ID \/ K p) -> todo_ok (cw_db s) K ([SEmit n; SMark id] ++ r)).
    { intros K K0 K1 K2. cbn [app todo_ok]. rewrite Eid. split; auto. split; auto. split; auto. split; auto. split; auto. split; [auto|]. eapply todo_mono; [|exact T3]. intros x [X|X]; auto. }
    unfold node_stmts. cbn [app todo_ok]. split; [auto|]. destruct (n_par n) as [p|] eqn:Ep.
    + destruct (N.eqb_spec p INV_ID).
      * cbn [app]. apply Rest; auto. intros q Hq. injection Hq as <-. auto.
      * cbn [app]. destruct (C2 p eq_refl) as [?|C2']; [contradiction|]. split; [exact C2'|]. apply (Rest (fun x => (known_id (cw_lines s) x \/ x = n_attr n) \/ x = p)); auto. intros q Hq. injection Hq as <-. auto.
    + cbn [app]. apply Rest; auto. intros q Hq. discriminate.
  - destruct T as (T1 & T2 & T3 & T4 & T5). injection H as <-. destruct Hi as [A B C D F G].
    assert (W : wids (cw_lines s ++ [WNode n]) = wids (cw_lines s) ++ [n_id n]) by (rewrite wids_app; reflexivity).
    constructor; rewrite ?lines_snoc; cbn [cw_db cw_written cw_todo]; auto.
    + intros i Hi. rewrite W, in_app_iff. auto.
    + intros m Hm. apply in_app_iff in Hm. destruct Hm as [Hm|[Hm|[]]]; auto. injection Hm as <-. auto.
    + apply rclosed_node; auto.
    + intro u. destruct (N.eq_dec u t) as [->|Hne].
      * rewrite upd_same. eapply todo_mono; [|exact T5]. intros x [X| ->]; [apply known_snoc; auto|]. right. rewrite W, in_app_iff. right. left. reflexivity.
      * rewrite upd_other by auto. eapply todo_mono; [|apply G]. intros x X. apply known_snoc; auto.
  - destruct T as (T1 & T2 & T3). injection H as <-. destruct Hi as [A B C D F G].
    constructor; unfold cw_lines in *; cbn [cw_db cw_written cw_todo cw_out] in *; auto.
    + intros i [<-|Hi]; auto. destruct T2 as [T2|T2]; [lia|auto].
    + intro u. destruct (N.eq_dec u t) as [->|Hne]; [rewrite upd_same; exact T3|rewrite upd_other by auto; apply G].
  - destruct T as (T1 & T2). injection H as <-. destruct Hi as [A B C D F G].
    assert (W : wids (cw_lines s ++ [WRec g (refs_of rec) (imms_of rec)]) = wids (cw_lines s)) by (rewrite wids_app; cbn; apply app_nil_r).
    constructor; rewrite ?lines_snoc; cbn [cw_db cw_written cw_todo]; auto.
    + intros i Hi. rewrite W. auto.
    + intros m Hm. apply in_app_iff in Hm. destruct Hm as [Hm|[Hm|[]]]; auto. discriminate.
    + apply rclosed_rec; auto.
      * apply Forall_forall. intros i Hi. apply refs_in in Hi. apply (T1 (ERef i) Hi).
      * apply Forall_forall. intros (a, v) Hi. apply imms_in in Hi. apply (T1 (EImm a v) Hi).
    + intro u. destruct (N.eq_dec u t) as [->|Hne].
      * rewrite upd_same. eapply todo_mono; [|exact T2]. intros x X. apply known_snoc; auto.
      * rewrite upd_other by auto. eapply todo_mono; [|apply G]. intros x X. apply known_snoc; auto.
Qed.
Lemma history_inv src acts s : (forall i n, src i = Some n -> 11 <= i -> n_id n = i) -> history src acts s -> inv src s.
Proof.
  intros Hid. induction 1 as [db Hp Hc|acts s a s' Hh IH Ha E].
  - constructor; cbn; auto; try contradiction; try constructor.
  - destruct a as [t g rec|t|db]; cbn [act_ok cw_act] in *.
    + destruct (cw_todo s t) eqn:Et; [|discriminate]. injection E as <-. apply inv_set; auto. apply todo_call; auto.
    + eapply inv_exec; eauto.
    + injection E as <-. destruct Ha as (H1 & H2 & H3). destruct IH as [A B C D F G]. constructor; cbn [cw_db cw_written cw_todo]; auto.
      * intros n Hn. destruct (D n Hn) as (D1 & D2). split; auto.
      * intro t. eapply todo_db; eauto.
Qed.
Lemma rclosed_resolved ls : rclosed ls -> refs_resolved ls.
Proof.
  induction 1 as [|ls n Hc IH Ka Kp|ls g refs imms Hc IH Kr Ki]; intros pre l post id E Hr.
  - destruct pre; discriminate.
  - destruct post as [|x post].
    + apply app_inj_tail in E. destruct E as (<- & <-). apply known_defined. cbn [refers] in Hr. destruct Hr as [->|(Hp & Hne)]; auto. destruct (Kp _ Hp); auto. contradiction.
    + destruct (exists_last (l := x :: post)) as (post' & y & E'); [discriminate|]. rewrite E' in E.
      change (pre ++ l :: post' ++ [y]) with (pre ++ (l :: post') ++ [y]) in E. rewrite app_assoc in E. apply app_inj_tail in E. destruct E as (E & _). apply (IH _ _ _ _ E Hr).
  - destruct post as [|x post].
    + apply app_inj_tail in E. destruct E as (<- & <-). apply known_defined. cbn [refers] in Hr. rewrite Forall_forall in Kr, Ki. destruct Hr as [Hr|(v & Hr)]; auto. apply (Ki (id, v)); auto.
    + destruct (exists_last (l := x :: post)) as (post' & y & E'); [discriminate|]. rewrite E' in E.
      change (pre ++ l :: post' ++ [y]) with (pre ++ (l :: post') ++ [y]) in E. rewrite app_assoc in E. apply app_inj_tail in E. destruct E as (E & _). apply (IH _ _ _ _ E Hr).
Qed.

(* ---------- records ---------- *)
Definition pending (l : list stmt) : list (bool * list N * list (N * value)) := flat_map (fun x => match x with SRec g rec => [(g, refs_of rec, imms_of rec)] | _ => [] end) l.
Lemma pending_call g rec : pending (call_stmts g rec) = [(g, refs_of rec, imms_of rec)].
Proof. unfold call_stmts, pending. rewrite flat_map_app. cbn. assert (E : forall l : list entry, flat_map (fun x => match x with SRec g rec => [(g, refs_of rec, imms_of rec)] | _ => [] end) (map (fun e => SNode (entry_node e)) l) = []) by (induction l; auto). rewrite E. reflexivity. Qed.
Lemma pending_node id n r : pending (node_stmts id n ++ r) = pending r.
Proof. unfold node_stmts. destruct (n_par n) as [p|]; [destruct (p =? INV_ID)|]; reflexivity. Qed.
Lemma asked_snoc t acts a : asked t (acts ++ [a]) = asked t acts ++ match a with ACall u g rec => if u =? t then [(g, refs_of rec, imms_of rec)] else [] | _ => [] end.
Proof. unfold asked. rewrite flat_map_app. cbn [flat_map]. rewrite app_nil_r. reflexivity. Qed.
Lemma history_recs src acts s : history src acts s -> forall t, written_by t s ++ pending (cw_todo s t) = asked t acts.
Proof.
  induction 1 as [db Hp Hc|acts s a s' Hh IH Ha E]; intro t; [reflexivity|]. rewrite asked_snoc, <- IH. clear Hh. destruct a as [u g rec|u|db]; cbn [cw_act] in E.
  - destruct (cw_todo s u) eqn:Eu; [|discriminate]. injection E as <-. unfold written_by. cbn [set_todo cw_todo cw_out]. destruct (N.eqb_spec u t) as [->|Hne].
    + rewrite upd_same, Eu, pending_call. cbn. rewrite app_nil_r. reflexivity.
    + rewrite upd_other, app_nil_r by auto. reflexivity.
  - rewrite app_nil_r. unfold cw_exec in E. destruct (N.eq_dec u t) as [->|Hne].
    + destruct (cw_todo s t) as [|[id|id|n|id|g rec] r] eqn:Et; [discriminate| | | | |].
      * destruct (id <? 11); [|destruct (mem id (cw_written s))]; injection E as <-; unfold written_by; cbn [set_todo cw_todo cw_out]; rewrite upd_same; reflexivity.
      * destruct (cw_db s id) as [m|]; injection E as <-; unfold written_by; cbn [set_todo cw_todo cw_out]; rewrite upd_same; [destruct (n_par m) as [p|]; [destruct (p =? INV_ID)|]|]; reflexivity.
      * injection E as <-. unfold written_by. cbn [cw_todo cw_out]. rewrite upd_same, flat_map_app. cbn. rewrite app_nil_r. reflexivity.
      * injection E as <-. unfold written_by. cbn [cw_todo cw_out]. rewrite upd_same. reflexivity.
      * injection E as <-. unfold written_by. cbn [cw_todo cw_out]. rewrite upd_same, flat_map_app. cbn [flat_map]. rewrite N.eqb_refl, <- !app_assoc. reflexivity.
    + assert (Ne : (u =? t) = false) by (apply N.eqb_neq; auto).
      destruct (cw_todo s u) as [|[id|id|n|id|g rec] r] eqn:Et; [discriminate| | | | |].
      * destruct (id <? 11); [|destruct (mem id (cw_written s))]; injection E as <-; unfold written_by; cbn [set_todo cw_todo cw_out]; rewrite upd_other by auto; reflexivity.
      * destruct (cw_db s id); injection E as <-; unfold written_by; cbn [set_todo cw_todo cw_out]; rewrite upd_other by auto; reflexivity.
      * injection E as <-. unfold written_by. cbn [cw_todo cw_out]. rewrite upd_other, flat_map_app by auto. cbn. rewrite app_nil_r. reflexivity.
      * injection E as <-. unfold written_by. cbn [cw_todo cw_out]. rewrite upd_other by auto. reflexivity.
      * injection E as <-. unfold written_by. cbn [cw_todo cw_out]. rewrite upd_other, flat_map_app by auto. cbn [flat_map]. rewrite Ne. cbn. rewrite app_nil_r. reflexivity.
  - injection E as <-. rewrite app_nil_r. reflexivity.
Qed.
