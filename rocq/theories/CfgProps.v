(* C58: the options of a configuration take effect *)
From Coq Require Import Strings.Ascii Strings.String.
From Coq Require Import Sorting.Sorted.
From Verif Require Import Base NamesModel TextModel ParseModel ParseSpec ParseProofs ParseProps RConfigModel JsonModel JsonOutSpec JsonProofs2 CfgModel CfgSpec CfgProofs.
Open Scope N_scope.

(* An option is enabled if and only if some argument switches it on, or switches on an option that inherits it. *)
Theorem C58_enabled depth s args o k : make_options depth s args = Some o ->
  (is_enabled o k = true <-> exists a v, In (a, v) args /\ switches_on s a v /\ reaches s a k).
Proof.
  unfold make_options, find_enabled. intro H. destruct (enabled_all depth s args) as [l|] eqn:E; [|discriminate H]. cbn [option_map] in H. injection H as <-. unfold is_enabled. cbn [o_on]. rewrite mem_spec, dedup_in, (en_in s depth args l E).
  split; intros (a & v & H1 & H2 & H3); exists a, v; (split; [exact H1|]; split; [apply arg_on_spec; exact H2|exact H3]).
Qed.
(* Inheritance without cycles ends: the options exist, whatever the arguments, and do not depend on the stack. *)
Theorem C58_total s rank depth args : acyclic s rank -> (forall a v, In (a, v) args -> (rank a < depth)%nat) ->
  exists o, make_options depth s args = Some o /\ forall depth', (depth <= depth')%nat -> make_options depth' s args = Some o.
Proof.
  intros A B. assert (X : exists l, forall depth', (depth <= depth')%nat -> enabled_all depth' s args = Some l).
  { induction args as [|(a, v) args IH] using rev_ind; [exists []; reflexivity|]. destruct IH as (l & Hl); [intros x w Hx; apply (B x w), in_or_app; auto|]. destruct (inherited_total s rank A depth a) as (t & Ht); [apply (B a v), in_or_app; right; left; reflexivity|].
    exists (l ++ (if arg_on s (a, v) then a :: t else [])). intros d' L. rewrite en_app, en_one, (Hl d' L). unfold en1. cbn [fst]. rewrite (inherited_mono s depth d' a t Ht L). destruct (arg_on s (a, v)); reflexivity. }
  destruct X as (l & Hl). exists (mkopts s args (dedup l)). unfold make_options, find_enabled. rewrite Hl by lia. split; [reflexivity|]. intros d' L. rewrite Hl by lia. reflexivity.
Qed.
(* With a cycle it does not: an option that inherits itself overflows every stack. *)
Theorem C58_cycle_refuted : exists s args, forall depth, make_options depth s args = None.
Proof.
  exists [(bs "a", mkopt [] [] [] [bs "a"] [] [])], [(bs "a", bs "1")]. intro depth. unfold make_options, find_enabled, enabled_all. cbn [fold_left]. set (s := [(bs "a", _)]). assert (X : inherited depth s (bs "a") = None). { induction depth as [|n IH]; [reflexivity|]. rewrite inherited_unfold. change (lookup s (bs "a")) with (Some (mkopt [] [] [] [bs "a"] [] [])). cbn [op_inherit fold_left inh_step]. rewrite IH. reflexivity. }
  change (arg_on s (bs "a", bs "1")) with true. cbn [fst]. cbv iota. rewrite X. reflexivity.
Qed.
(* Enabled options are listed once each, in the order of the arguments: further arguments only add options at the
   end; an argument's own option comes first, then what it inherits. *)
Theorem C58_order depth s args1 args2 o1 o2 o : make_options depth s args1 = Some o1 -> make_options depth s args2 = Some o2 -> make_options depth s (args1 ++ args2) = Some o ->
  o_on o = o_on o1 ++ filter (fun k => negb (is_enabled o1 k)) (o_on o2) /\ NoDup (o_on o).
Proof.
  unfold make_options, find_enabled, is_enabled. rewrite en_app. destruct (enabled_all depth s args1) as [l1|]; [|discriminate]. destruct (enabled_all depth s args2) as [l2|]; [|discriminate]. cbn [option_map]. intros H1 H2 H. injection H1 as <-. injection H2 as <-. injection H as <-. cbn [o_on]. split; [apply dedup_app|apply dedup_nodup].
Qed.
Theorem C58_single depth s a v o : make_options depth s [(a, v)] = Some o -> switches_on s a v -> exists r, o_on o = a :: r.
Proof.
  unfold make_options, find_enabled. rewrite en_one. unfold en1. intros H Hs. apply arg_on_spec in Hs. rewrite Hs in H. cbn [fst] in H. destruct (inherited depth s a) as [t|]; [|discriminate H]. cbn [option_map] in H. injection H as <-. cbn [o_on]. change (a :: t) with ([a] ++ t). rewrite dedup_app. change (dedup [a]) with [a]. eexists. reflexivity.
Qed.
(* get and is_set: the first value given *)
Theorem C58_get depth s args o k dflt : make_options depth s args = Some o ->
  (is_set o k = true <-> exists v, In (k, v) args) /\
  (forall l1 v l2, args = l1 ++ (k, v) :: l2 -> (forall w, ~ In (k, w) l1) -> get o k dflt = v) /\
  ((forall v, ~ In (k, v) args) -> get o k dflt = dflt).
Proof.
  unfold make_options. destruct (find_enabled depth s args) as [l|]; [|discriminate]. intro H. injection H as <-. unfold is_set, get. cbn [o_args].
  assert (Y : (exists v, In (k, v) args) <-> In k (map fst args)). { rewrite in_map_iff. split; [intros (v & Hv); exists (k, v); auto|intros ((x, v) & E & Hv); cbn in E; subst; eauto]. }
  split; [|split].
  - rewrite Y, <- lookup_some. destruct (lookup args k) as [v|]; split; try congruence; [eauto|]. intros (v & D). discriminate D.
  - intros l1 v l2 -> Hn. rewrite lookup_app. assert (E : lookup l1 k = None). { apply lookup_none. intro D. apply in_map_iff in D. destruct D as ((x, w) & E & Hw). cbn in E. subst x. exact (Hn w Hw). } rewrite E. cbn [lookup]. rewrite keq_refl. reflexivity.
  - intro Hn. assert (E : lookup args k = None). { apply lookup_none. intro D. apply Y in D. destruct D as (v & Hv). exact (Hn v Hv). } rewrite E. reflexivity.
Qed.

(* ---------- the channel's services ---------- *)
Theorem C58_services o given : exists l, services o given = join_list l /\ increasing l /\
  forall x, In x l <-> In x (to_stringlist [44] given) \/ exists k sp, In k (o_on o) /\ lookup (o_spec o) k = Some sp /\ In x (op_services sp).
Proof.
  eexists. split; [reflexivity|]. split; [apply uniq_inc, ssorted_weak|]. intro x. rewrite uniq_in, ssorted_in, in_app_iff, in_flat_map. unfold opt_services. split; (intros [H|H]; [auto|right]).
  - destruct H as (k & H1 & H2). destruct (lookup (o_spec o) k) as [sp|] eqn:E; [|contradiction]. exists k, sp. auto.
  - destruct H as (k & sp & H1 & H2 & H3). exists k. rewrite H2. auto.
Qed.
(* the list survives as text: service names without delimiters, quotes and white space are read back *)
Definition plain_name (w : bytes) : Prop := w <> [] /\ Forall (plain [44]) w.
Lemma join_joinc l : join_list l = joinc [44] l.
Proof. destruct l as [|x l]; [reflexivity|]. cbn [joinc]. revert x. induction l as [|y l IH]; intro x; [cbn; symmetry; apply app_nil_r|]. cbn [join_list flat_map] in *. rewrite IH. rewrite <- app_assoc. reflexivity. Qed.
Lemma plain_spells w : Forall (plain [44]) w -> spells [44] w w.
Proof. induction 1; constructor; auto. Qed.
Lemma stringlist_join l : Forall plain_name l -> to_stringlist [44] (join_list l) = l.
Proof.
  intro H. destruct l as [|x l]; [reflexivity|]. rewrite join_joinc. assert (W : Forall2 (fun i w => i <> [] /\ spells [44] i w) (x :: l) (x :: l)). { clear -H. induction H as [|y l' (H1 & H2) H IH]; constructor; auto. split; [exact H1|apply plain_spells; exact H2]. }
  assert (E := C36_stringlist [44] 44 [] (x :: l) (x :: l) ltac:(repeat split; try discriminate; left; reflexivity) (Forall_nil _) W ltac:(discriminate)). cbn [app] in E. rewrite app_nil_r, List.map_id in E. rewrite E. clear -H. induction H as [|y l' (H1 & H2) H IH]; [reflexivity|]. cbn [filter]. destruct y; [congruence|]. cbn [nonempty]. f_equal. exact IH.
Qed.
Theorem C58_services_text o given : (forall x, In x (to_stringlist [44] given) -> plain_name x) -> (forall k sp x, In k (o_on o) -> lookup (o_spec o) k = Some sp -> In x (op_services sp) -> plain_name x) ->
  forall x, In x (to_stringlist [44] (services o given)) <-> In x (to_stringlist [44] given) \/ exists k sp, In k (o_on o) /\ lookup (o_spec o) k = Some sp /\ In x (op_services sp).
Proof.
  intros H1 H2. destruct (C58_services o given) as (l & E & _ & Hl). rewrite E, stringlist_join; [exact Hl|]. apply Forall_forall. intros x Hx. apply Hl in Hx. destruct Hx as [Hx|(k & sp & A & B & C)]; [auto|exact (H2 k sp x A B C)].
Qed.

(* ---------- configuration variables ---------- *)
Lemma look_lookup {A} (m : list (bytes * A)) k : look m k = lookup m k.
Proof.
  induction m as [|(x, v) m IH]; [reflexivity|]. cbn [look lookup]. destruct (keq k x) eqn:E.
  - apply keq_spec in E. subst. change beqb with keq. rewrite keq_refl. reflexivity.
  - apply keq_false in E. change beqb with keq. rewrite (proj2 (keq_false x k)) by congruence. exact IH.
Qed.
Lemma kmap_lookup {A} (m : list (bytes * A)) k : lookup (kmap m) k = lookup m k.
Proof. rewrite <- !look_lookup. apply (proj2 (kmap_ok m)). Qed.
Lemma srt_nodup {A} (m : list (bytes * A)) : srt m -> NoDup (map fst m).
Proof.
  induction 1 as [|(k, v) m H IH Hf]; cbn [map fst]; constructor; [|exact IH]. intro D. apply in_map_iff in D. destruct D as ((x, w) & E & D). cbn in E. subst x. rewrite Forall_forall in Hf. specialize (Hf _ D). cbn in Hf. unfold before in Hf. rewrite bltb_irrefl in Hf. discriminate Hf.
Qed.
Lemma front_lookup {A B} (g : A -> B) (L : list (bytes * A)) : NoDup (map fst L) -> forall c k, lookup (fold_left (fun c kv => (fst kv, g (snd kv)) :: c) L c) k = match lookup L k with Some t => Some (g t) | None => lookup c k end.
Proof.
  induction L as [|(x, t) L IH]; intros Hn c k; [reflexivity|]. cbn [map fst] in Hn. apply NoDup_cons_iff in Hn. destruct Hn as (Hx & Hn). cbn [fold_left]. rewrite (IH Hn). cbn [lookup fst snd]. destruct (keq k x) eqn:E; [|reflexivity]. apply keq_spec in E. subst k. rewrite (proj2 (lookup_none L x) Hx). reflexivity.
Qed.
Definition arg_value (o : options) (k text : bytes) : bytes := match lookup (o_args o) k with Some v => expand text v | None => text end.
(* the option k sets the variable x: its value, in which {} stands for the argument *)
Definition sets (o : options) (x : bytes) (k : bytes) (val : bytes) : Prop :=
  exists sp text, lookup (o_spec o) k = Some sp /\ lookup (op_config sp) x = Some text /\ val = arg_value o k text.
Definition ap_step (o : options) (c : list (bytes * bytes)) (k : bytes) : list (bytes * bytes) :=
  match lookup (o_spec o) k with
  | None => c
  | Some sp => fold_left (fun c kv => (fst kv, match lookup (o_args o) k with Some v => expand (snd kv) v | None => snd kv end) :: c) (kmap (op_config sp)) c
  end.
Lemma append_last o (c : list (bytes * bytes)) x :
  (exists k val, last_with (fun k => exists v, sets o x k v) (o_on o) k /\ sets o x k val /\ lookup (append_config o c) x = Some val) \/
  ((forall k, In k (o_on o) -> forall v, ~ sets o x k v) /\ lookup (append_config o c) x = lookup c x).
Proof.
  change (append_config o c) with (fold_left (ap_step o) (o_on o) c). induction (o_on o) as [|k l IH] using rev_ind; [right; split; [intros k []|reflexivity]|]. rewrite fold_left_app. cbn [fold_left]. set (c1 := fold_left (ap_step o) l c) in *. unfold ap_step.
  destruct (lookup (o_spec o) k) as [sp|] eqn:E.
  - rewrite (front_lookup (fun t => match lookup (o_args o) k with Some v => expand t v | None => t end) (kmap (op_config sp)) (srt_nodup _ (proj1 (kmap_ok _))) c1 x), kmap_lookup. destruct (lookup (op_config sp) x) as [t|] eqn:E2.
    + left. assert (S1 : sets o x k (arg_value o k t)) by (exists sp, t; auto). exists k, (arg_value o k t). split; [exists l, []; split; [reflexivity|]; split; [eauto|intros y []]|]. split; [exact S1|reflexivity].
    + assert (N1 : forall v, ~ sets o x k v) by (intros v (sp' & t & D1 & D2 & _); congruence). destruct IH as [(k' & v & (l1 & l2 & El & P & Q) & Sv & Ec)|(Hn & Ec)].
      * left. exists k', v. split; [|auto]. exists l1, (l2 ++ [k]). split; [rewrite El, <- app_assoc; reflexivity|]. split; [exact P|]. intros y Hy. apply in_app_or in Hy. destruct Hy as [Hy|[<-|[]]]; [auto|]. intros (w & D). exact (N1 w D).
      * right. split; [|exact Ec]. intros k' Hk. apply in_app_or in Hk. destruct Hk as [Hk|[<-|[]]]; auto.
  - assert (N1 : forall v, ~ sets o x k v) by (intros v (sp' & t & D1 & D2 & _); congruence). destruct IH as [(k' & v & (l1 & l2 & El & P & Q) & Sv & Ec)|(Hn & Ec)].
    + left. exists k', v. split; [|auto]. exists l1, (l2 ++ [k]). split; [rewrite El, <- app_assoc; reflexivity|]. split; [exact P|]. intros y Hy. apply in_app_or in Hy. destruct Hy as [Hy|[<-|[]]]; [auto|]. intros (w & D). exact (N1 w D).
    + right. split; [|exact Ec]. intros k' Hk. apply in_app_or in Hk. destruct Hk as [Hk|[<-|[]]]; auto.
Qed.
(* Every variable of the channel's configuration gets the value of the last enabled option that sets it; without
   one it keeps its value, except for the list of services. *)
Theorem C58_config o c x :
  (exists k val, last_with (fun k => exists v, sets o x k v) (o_on o) k /\ sets o x k val /\ lookup (update_config o c) x = Some val) \/
  ((forall k v, In k (o_on o) -> ~ sets o x k v) /\
   lookup (update_config o c) x = if keq x services_key then Some (services o (match lookup c services_key with Some v => v | None => [] end)) else lookup c x).
Proof.
  unfold update_config. destruct (append_last o ((services_key, services o (match lookup c services_key with Some v => v | None => [] end)) :: c) x) as [H|(H1 & H2)]; [left; exact H|right]. split; [intros k v Hk; apply H1; exact Hk|]. rewrite H2. reflexivity.
Qed.
(* the placeholder {} stands for the argument's value; the other characters are kept *)
Theorem C58_placeholder pieces v : Forall literal pieces -> expand (joinc [123; 125] pieces) v = joinc v pieces.
Proof. apply expand_pieces. Qed.
Theorem C58_brace_refuted : expand (bs "{{}") (bs "x") = bs "{{}".
Proof. reflexivity. Qed.

(* ---------- queries ---------- *)
Definition query_part (o : options) (level : bytes) (k : bytes) : bytes :=
  match lookup (o_spec o) k with
  | Some sp => match lookup (op_query sp) level with Some q => [32] ++ expand q (get o k []) | None => [] end
  | None => []
  end.
Theorem C58_query o level text : build_query o level text = text ++ flat_map (query_part o level) (o_on o).
Proof.
  unfold build_query. revert text. induction (o_on o) as [|k l IH]; intro text; [symmetry; apply app_nil_r|]. cbn [fold_left flat_map]. rewrite IH. unfold query_part at 2, get. destruct (lookup (o_spec o) k) as [sp|]; [|reflexivity]. destruct (lookup (op_query sp) level) as [q|]; [|reflexivity]. rewrite <- !app_assoc. reflexivity.
Qed.

(* ---------- check ---------- *)
Theorem C58_check avail o : opts_check avail o = true <->
  (exists k v sp, In (k, v) (o_args o) /\ lookup (o_spec o) k = Some sp /\ op_type sp = bs "bool" /\ forall b, ~ says v b) \/
  (exists k sp r, In k (o_on o) /\ lookup (o_spec o) k = Some sp /\ In r (op_services sp) /\ ~ In r avail).
Proof.
  unfold opts_check. rewrite orb_true_iff, !existsb_exists. split.
  - intros [((k, v) & H & B)|(k & H & B)].
    + left. unfold bad_value in B. cbn [fst snd] in B. destruct (lookup (o_spec o) k) as [sp|] eqn:E; [|discriminate B]. apply andb_true_iff in B. destruct B as (B1 & B2). apply keq_spec in B1. exists k, v, sp. split; [exact H|]. split; [exact E|]. split; [exact B1|]. intros b D. apply to_bool_says in D. rewrite D in B2. discriminate B2.
    + right. destruct (lookup (o_spec o) k) as [sp|] eqn:E; [|discriminate B]. apply existsb_exists in B. destruct B as (r & H1 & H2). exists k, sp, r. apply negb_true_iff, mem_false in H2. auto.
  - intros [(k & v & sp & H & E & T & N)|(k & sp & r & H & E & H1 & H2)].
    + left. exists (k, v). split; [exact H|]. unfold bad_value. cbn [fst snd]. rewrite E, (proj2 (keq_spec _ _) T). cbn [andb]. destruct (to_bool_str v) as [b|] eqn:Eb; [|reflexivity]. exfalso. apply (N b). apply to_bool_says. exact Eb.
    + right. exists k. split; [exact H|]. rewrite E. apply existsb_exists. exists r. split; [exact H1|]. apply negb_true_iff, mem_false. exact H2.
Qed.

(* ---------- metadata ---------- *)
(* each option given is recorded under opts:<name>, the last value of several; other entries are kept *)
Theorem C58_metadata files o info k : (forall v, ~ In (bs "metadata", v) (o_args o)) ->
  lookup (update_metadata files o info) (bs "opts:" ++ k) = match lookup (rev (o_args o)) k with Some v => Some v | None => lookup info (bs "opts:" ++ k) end /\
  (forall x, (forall a, x <> bs "opts:" ++ a) -> lookup (update_metadata files o info) x = lookup info x).
Proof.
  unfold update_metadata. intro Hm. induction (o_args o) as [|(a, v) l IH] using rev_ind; [split; reflexivity|]. destruct IH as (H1 & H2); [intros w D; apply (Hm w), in_or_app; auto|]. rewrite fold_left_app, rev_app_distr. cbn [fold_left rev app fst snd].
  assert (Ha : keq a (bs "metadata") = false). { apply keq_false. intros ->. apply (Hm v), in_or_app. right. left. reflexivity. } rewrite Ha. split.
  - cbn [lookup]. destruct (keq k a) eqn:E.
    + apply keq_spec in E. subst. change (keq (bs "opts:" ++ a) (bs "opts:" ++ a) ) with (keq (bs "opts:" ++ a) (bs "opts:" ++ a)). rewrite keq_refl. reflexivity.
    + apply keq_false in E. rewrite (proj2 (keq_false (bs "opts:" ++ k) (bs "opts:" ++ a))); [exact H1|]. intro D. apply app_inv_head in D. contradiction.
  - intros x Hx. cbn [lookup]. rewrite (proj2 (keq_false x (bs "opts:" ++ a))) by apply Hx. apply H2. exact Hx.
Qed.

(* ---------- a concrete case ---------- *)
Definition ex_spec : ospec :=
  [(bs "profile.mpi", mkopt (bs "bool") (bs "runtime") [bs "mpi"; bs "event"] [bs "base"] [(bs "local", bs "let x={}")] []);
   (bs "base", mkopt [] [] [bs "timer"] [] [] [(bs "CALI_TIMER_UNIT", bs "usec")]);
   (bs "output.format", mkopt (bs "string") (bs "output") [] [] [(bs "local", bs "format {}")] [(bs "CALI_REPORT_CONFIG", bs "q={}.")]);
   (bs "mem", mkopt (bs "bool") (bs "runtime") [bs "alloc"] [] [] [])].
Definition ex_args : arglist := [(bs "output.format", bs "tree"); (bs "profile.mpi", bs "True"); (bs "mem", bs "0"); (bs "output.format", bs "json")].
Definition ex_rank (k : bytes) : nat := if keq k (bs "profile.mpi") then 1 else 0.
Example C58_ex_acyclic : acyclic ex_spec ex_rank.
Proof.
  intros a o b H Hb. apply lookup_in in H. cbn [ex_spec In] in H. destruct H as [H|[H|[H|[H|[]]]]]; injection H as <- <-; cbn [op_inherit In] in Hb; try contradiction. destruct Hb as [<-|[]]. vm_compute. lia.
Qed.
Example C58_ex : exists o, make_options 5 ex_spec ex_args = Some o /\ o_on o = [bs "output.format"; bs "profile.mpi"; bs "base"] /\
  is_enabled o (bs "mem") = false /\ services o (bs "event,trace") = bs "event,mpi,timer,trace" /\
  lookup (update_config o [(bs "CALI_TIMER_UNIT", bs "sec")]) (bs "CALI_TIMER_UNIT") = Some (bs "usec") /\
  lookup (update_config o []) (bs "CALI_REPORT_CONFIG") = Some (bs "q=tree.") /\
  build_query o (bs "local") (bs "select *") = bs "select * format tree let x=True" /\ opts_check [bs "mpi"; bs "event"; bs "timer"] o = false.
Proof. eexists. split; [vm_compute; reflexivity|]. vm_compute. repeat split. Qed.
