(* C40: unrelated settings; configuration files *)
From Coq Require Import Strings.Ascii Strings.String.
From Verif Require Import Base TextModel ParseModel RConfigModel RConfigSpec RConfigProofs RConfigProps.
Open Scope N_scope.

(* ---------- settings of other variables ---------- *)
Lemma lv_app a b x : last_value (a ++ b) x = match last_value b x with Some v => Some v | None => last_value a x end.
Proof. induction a as [|(k, v) a IH]; cbn [app last_value]; [destruct (last_value b x); reflexivity|]. rewrite IH. destruct (last_value b x); reflexivity. Qed.
Lemma lv_drop a m b x : Forall (fun p => fst p <> x) m -> last_value (a ++ m ++ b) x = last_value (a ++ b) x.
Proof.
  intro F. rewrite !lv_app. destruct (last_value b x); [reflexivity|]. assert (last_value m x = None) as ->; [|reflexivity]. induction F as [|(k, v) m H F IH]; [reflexivity|]. cbn [last_value]. rewrite IH. cbn [fst] in H. destruct (list_eq_dec N.eq_dec k x); [contradiction|reflexivity].
Qed.
(* operations that do not mention the variables x *)
Definition unrelated (xs : list bytes) (o : cop) : Prop :=
  match o with OSet k _ => ~ In k xs | OPreset k _ => ~ In k xs | OImport l => Forall (fun p => ~ In (fst p) xs) l | _ => False end.
Lemma setup_ins a o b : query o = None -> setup (a ++ o :: b) = match later a with [] => setup a ++ o :: setup b | _ => setup a end /\ setup (a ++ b) = match later a with [] => setup a ++ setup b | _ => setup a end.
Proof.
  intro Q. induction a as [|x a (IH1 & IH2)]; cbn [app setup later]; [rewrite Q; auto|]. destruct (query x); [auto|]. rewrite IH1, IH2. destruct (later a); auto.
Qed.
Lemma later_ins a o b : query o = None -> later (a ++ o :: b) = match later a with [] => later b | l => l ++ o :: b end /\ later (a ++ b) = match later a with [] => later b | l => l ++ b end.
Proof.
  intro Q. induction a as [|x a (IH1 & IH2)]; cbn [app later]; [rewrite Q; auto|]. destruct (query x); [auto|]. rewrite IH1, IH2. auto.
Qed.
Lemma unrel_query xs o : unrelated xs o -> query o = None. Proof. destruct o; cbn; intro H; reflexivity || contradiction. Qed.
Lemma unrel_sets xs o x : unrelated xs o -> In x xs -> Forall (fun p => fst p <> x) (set_of o).
Proof.
  intros U H. destruct o; cbn in *; try contradiction; [constructor|constructor; [cbn; intros ->; contradiction|constructor]|]. apply Forall_forall. intros p Hp E. rewrite Forall_forall in U. apply (U p Hp). rewrite E. exact H.
Qed.
Lemma unrel_presets xs o x : unrelated xs o -> In x xs -> Forall (fun p => fst p <> x) (preset_of o).
Proof. intros U H. destruct o; cbn in *; try contradiction; constructor; [cbn; intros ->; contradiction|constructor]. Qed.
Lemma unrel_env xs o a b : unrelated xs o -> env_allowed (a ++ o :: b) = env_allowed (a ++ b).
Proof. intro U. unfold env_allowed. rewrite !fold_left_app. cbn [fold_left]. destruct o; cbn in U; reflexivity || contradiction. Qed.
Lemma fm_ins A B (f : A -> list B) a o b : flat_map f (a ++ o :: b) = flat_map f a ++ f o ++ flat_map f b.
Proof. rewrite flat_map_app. reflexivity. Qed.
Lemma lv_sets xs o a b x : unrelated xs o -> In x xs -> last_value (sets (a ++ o :: b)) x = last_value (sets (a ++ b)) x.
Proof. intros U H. unfold sets. rewrite fm_ins, flat_map_app. apply lv_drop. exact (unrel_sets xs o x U H). Qed.
Lemma lv_presets xs o a b x : unrelated xs o -> In x xs -> last_value (presets (a ++ o :: b)) x = last_value (presets (a ++ b)) x.
Proof. intros U H. unfold presets. rewrite fm_ins, flat_map_app. apply lv_drop. exact (unrel_presets xs o x U H). Qed.

Section BUILTIN.
Variable builtin : bytes.
(* C40: setting or presetting other variables at any time does not influence a variable, unless they select the
   profiles or the files *)
Theorem C40_unrelated a o b w name l k : name <> bs "config" -> ~ initialised (a ++ o :: b) name -> unrelated [var name k; v_file; v_profile] o ->
  dget (snd (init_configset builtin w name l (crun builtin (a ++ o :: b)))) k = dget (snd (init_configset builtin w name l (crun builtin (a ++ b)))) k.
Proof.
  intros Hn Hi U. assert (Hi' : ~ initialised (a ++ b) name) by (intros (w' & l' & H); apply Hi; exists w', l'; apply in_app_iff in H as [H|H]; apply in_app_iff; cbn; auto).
  destruct (default_of l k) as [d|] eqn:D; [|rewrite !C40_unknown by assumption; reflexivity]. rewrite (C40_value builtin _ w name l k d Hn Hi D), (C40_value builtin _ w name l k d Hn Hi' D).
  set (xs := [var name k; v_file; v_profile]) in *. assert (X1 : In (var name k) xs) by (left; reflexivity). assert (X2 : In v_file xs) by (right; left; reflexivity). assert (X3 : In v_profile xs) by (right; right; left; reflexivity).
  assert (Q := unrel_query xs o U). destruct (setup_ins a o b Q) as (E1 & E2). destruct (later_ins a o b Q) as (L1 & L2).
  assert (W : first_world (a ++ o :: b) w = first_world (a ++ b) w). { unfold first_world. rewrite L1, L2. destruct (later a); reflexivity. } rewrite W. set (w0 := first_world (a ++ b) w).
  assert (Ss : forall x, In x xs -> last_value (sets (setup (a ++ o :: b))) x = last_value (sets (setup (a ++ b))) x) by (intros x H; rewrite E1, E2; destruct (later a); [apply (lv_sets xs); assumption|reflexivity]).
  assert (Sp : forall x, In x xs -> last_value (presets (setup (a ++ o :: b))) x = last_value (presets (setup (a ++ b))) x) by (intros x H; rewrite E1, E2; destruct (later a); [apply (lv_presets xs); assumption|reflexivity]).
  assert (Lp : forall x, In x xs -> last_value (presets (later (a ++ o :: b))) x = last_value (presets (later (a ++ b))) x) by (intros x H; rewrite L1, L2; destruct (later a) as [|y r]; [reflexivity|apply (lv_presets xs); assumption]).
  assert (Se : env_allowed (setup (a ++ o :: b)) = env_allowed (setup (a ++ b))) by (rewrite E1, E2; destruct (later a); [apply (unrel_env xs); assumption|reflexivity]).
  assert (Fi : config_files (a ++ o :: b) w0 = config_files (a ++ b) w0) by (unfold config_files; rewrite Ss, Sp, Se by assumption; reflexivity).
  assert (Pt : profile_table builtin (a ++ o :: b) w0 = profile_table builtin (a ++ b) w0) by (unfold profile_table; rewrite Fi; reflexivity).
  assert (Pr : config_profiles builtin (a ++ o :: b) w0 = config_profiles builtin (a ++ b) w0) by (unfold config_profiles; rewrite Ss, Sp, Se, Pt by assumption; reflexivity).
  unfold profile_value. rewrite Pt, Pr, Sp, Lp, (lv_sets xs), (unrel_env xs) by assumption. reflexivity.
Qed.
End BUILTIN.

(* ---------- lines ---------- *)
Lemma getlines_line l : forall cur t, ~ In 10 l -> getlines cur (l ++ 10 :: t) = (rev cur ++ l) :: getlines [] t.
Proof.
  induction l as [|c l IH]; intros cur t H; cbn [app getlines].
  - change (10 =? 10) with true. cbv iota. rewrite app_nil_r. reflexivity.
  - rewrite (proj2 (N.eqb_neq c 10)) by (intros ->; apply H; left; reflexivity). rewrite IH by (intro X; apply H; right; exact X). cbn [rev]. rewrite <- app_assoc. reflexivity.
Qed.
Lemma getlines_last l : forall cur, ~ In 10 l -> getlines cur l = match rev cur ++ l with [] => [] | x => [x] end.
Proof.
  induction l as [|c l IH]; intros cur H; cbn [getlines].
  - rewrite app_nil_r. destruct cur as [|c cur]; [reflexivity|]. cbn [rev]. destruct (rev cur ++ [c]) eqn:E; [destruct (rev cur); discriminate E|reflexivity].
  - rewrite (proj2 (N.eqb_neq c 10)) by (intros ->; apply H; left; reflexivity). rewrite IH by (intro X; apply H; right; exact X). cbn [rev]. rewrite <- app_assoc. reflexivity.
Qed.
Lemma getlines_all lines : Forall (fun l => ~ In 10 l) lines -> forall t, ~ In 10 t -> getlines [] (flat_map (fun l => l ++ [10]) lines ++ t) = lines ++ match t with [] => [] | _ => [t] end.
Proof.
  induction 1 as [|l lines H F IH]; intros t Ht; cbn [flat_map app]; [rewrite getlines_last by exact Ht; destruct t; reflexivity|]. rewrite <- !app_assoc. cbn [app]. rewrite getlines_line by exact H. cbn [rev app]. rewrite IH by exact Ht. reflexivity.
Qed.
Lemma find_char_app c a b : ~ In c a -> find_char c (a ++ c :: b) = Some (length a).
Proof.
  induction a as [|x a IH]; intro H; cbn [app find_char length]; [rewrite N.eqb_refl; reflexivity|]. rewrite (proj2 (N.eqb_neq x c)) by (intros ->; apply H; left; reflexivity). rewrite IH by (intro X; apply H; right; exact X). reflexivity.
Qed.
Lemma find_char_some c s n : find_char c s = Some n -> exists a b, s = a ++ c :: b /\ ~ In c a /\ length a = n.
Proof.
  revert n. induction s as [|x s IH]; intros n H; cbn [find_char] in H; [discriminate H|]. destruct (N.eqb_spec x c) as [->|Hx].
  - injection H as <-. exists [], s. auto.
  - destruct (find_char c s) as [m|]; [|discriminate H]. injection H as <-. destruct (IH m eq_refl) as (a & b & -> & Ha & <-). exists (x :: a), b. split; [reflexivity|]. split; [|reflexivity]. intros [E|E]; [congruence|contradiction].
Qed.
Lemma find_char_none c s : find_char c s = None -> ~ In c s.
Proof. induction s as [|x s IH]; cbn [find_char]; [auto|]. destruct (N.eqb_spec x c) as [->|Hx]; [discriminate|]. destruct (find_char c s); [discriminate|]. intros _ [E|E]; [congruence|exact (IH eq_refl E)]. Qed.
Lemma header_name line n : header line n -> nameOf_header line = Some n.
Proof.
  intros (a & b & -> & H1 & H2 & Hn & H3). unfold nameOf_header. change (35 :: a ++ 91 :: n ++ 93 :: b) with ((35 :: a) ++ 91 :: n ++ 93 :: b).
  rewrite find_char_app by (intros [E|E]; [discriminate E|contradiction]). replace ((35 :: a) ++ 91 :: n ++ 93 :: b) with (((35 :: a) ++ 91 :: n) ++ 93 :: b) by (rewrite <- app_assoc; reflexivity).
  rewrite find_char_app by (rewrite in_app_iff; intros [[E|E]|[E|E]]; (discriminate E || contradiction)). rewrite app_length. cbn [length].
  destruct n as [|x n]; [congruence|]. cbn [length]. replace (S (length a) + 1 <? S (length a) + S (S (length n)))%nat with true by (symmetry; apply Nat.ltb_lt; lia). f_equal.
  rewrite <- app_assoc. cbn [app]. replace (S (length a) + 1)%nat with (S (S (length a)))%nat by lia. match goal with |- context [skipn (S ?m) (35 :: ?z)] => change (skipn (S m) (35 :: z)) with (skipn m z) end. replace (a ++ 91 :: x :: n ++ 93 :: b) with ((a ++ [91]) ++ (x :: n) ++ 93 :: b) by (rewrite <- app_assoc; reflexivity).
  rewrite skipn_app. rewrite skipn_all2 by (rewrite app_length; cbn; lia). cbn [app]. rewrite app_length. cbn [length]. replace (S (length a) - (length a + 1))%nat with 0%nat by lia. cbn [skipn].
  replace (S (length a) + S (S (length n)) - S (length a) - 1)%nat with (length (x :: n)) by (cbn; lia). change (x :: n ++ 93 :: b) with ((x :: n) ++ 93 :: b). rewrite firstn_app, Nat.sub_diag, firstn_all. cbn [firstn]. apply app_nil_r.
Qed.
Lemma name_header line n : hd 0 line = 35 -> nameOf_header line = Some n -> header line n.
Proof.
  intros Hd. unfold nameOf_header. destruct (find_char 91 line) as [b|] eqn:Eb; [|discriminate]. destruct (find_char 93 line) as [e|] eqn:Ee; [|discriminate]. destruct (Nat.ltb_spec (b + 1) e) as [L|]; [|discriminate]. intro H. injection H as <-.
  apply find_char_some in Eb as (p & q & E1 & N1 & <-). apply find_char_some in Ee as (r & t & E2 & N2 & <-). subst line.
  assert (Er : exists x, r = p ++ 91 :: x /\ q = x ++ 93 :: t).
  { clear Hd N1 N2. revert r L E2. induction p as [|c p IH]; intros r L E2.
    - destruct r as [|c r]; [cbn in L; lia|]. cbn [app] in E2. injection E2 as <- E2. exists r. auto.
    - destruct r as [|c' r]; [cbn in L; lia|]. cbn [app] in E2. injection E2 as <- E2. cbn [length] in L. destruct (IH r ltac:(lia) E2) as (x & -> & ->). exists x. auto. }
  destruct Er as (x & -> & ->). rewrite app_length in *. cbn [length] in *.
  replace (length p + S (length x) - length p - 1)%nat with (length x) by lia. replace (p ++ 91 :: x ++ 93 :: t) with ((p ++ [91]) ++ x ++ 93 :: t) in * by (rewrite <- app_assoc; reflexivity).
  rewrite skipn_app, skipn_all2 by (rewrite app_length; cbn; lia). rewrite app_length. cbn [length app]. rewrite Nat.sub_diag. cbn [skipn]. rewrite firstn_app, Nat.sub_diag, firstn_all. cbn [firstn]. rewrite app_nil_r.
  destruct p as [|c p]; [discriminate Hd|]. cbn in Hd. subst c. exists p, t. split; [cbn [app]; rewrite <- app_assoc; reflexivity|]. split; [intro X; apply N1; right; exact X|]. split; [intro X; apply N2; apply in_app_iff; left; right; exact X|]. split; [intros ->; cbn in L; lia|]. intro X. apply N2. apply in_app_iff. right. right. exact X.
Qed.
Lemma assigns_do line k w s : assigns line k w -> assignment line s = mkP (p_all s) ((k, w) :: p_cur s) (p_name s).
Proof.
  intros (t & -> & Hk & H & ->). unfold assignment. rewrite find_char_app by exact H. destruct k as [|x k]; [congruence|]. cbn [length]. f_equal. f_equal. f_equal.
  - change (S (length k)) with (length (x :: k)). rewrite firstn_app, Nat.sub_diag, firstn_all. cbn [firstn]. apply app_nil_r.
  - f_equal. f_equal. f_equal. change (skipn (S (S (length k))) ((x :: k) ++ 61 :: t)) with (skipn (S (length k)) (k ++ 61 :: t)). rewrite (skipn_app (S (length k)) k). rewrite skipn_all2 by lia. replace (S (length k) - length k)%nat with 1%nat by lia. reflexivity.
Qed.
Lemma no_assign line s : ~ (exists k w, assigns line k w) -> assignment line s = s.
Proof.
  intro N. unfold assignment. destruct (find_char 61 line) as [[|n]|] eqn:E; [reflexivity| |reflexivity]. exfalso. apply N. apply find_char_some in E as (a & b & -> & H & L). exists a, (fst (read_word [] (s_open b))), b. split; [reflexivity|]. split; [destruct a; [discriminate L|discriminate]|]. auto.
Qed.
(* every line is one of the items *)
Lemma assigns_dec line : (exists k w, assigns line k w) \/ ~ exists k w, assigns line k w.
Proof.
  destruct (find_char 61 line) as [[|n]|] eqn:E.
  - right. apply find_char_some in E as (a & b & -> & H & L). destruct a; [|discriminate L]. intros (k & w & t & Ek & Hk & Hi & _). destruct k as [|c k]; [congruence|]. injection Ek as <- _. apply Hi. left. reflexivity.
  - left. apply find_char_some in E as (a & b & -> & H & L). exists a, (fst (read_word [] (s_open b))), b. split; [reflexivity|]. split; [destruct a; [discriminate L|discriminate]|]. auto.
  - right. intros (k & w & t & -> & _). apply find_char_none in E. apply E. apply in_app_iff. right. left. reflexivity.
Qed.
Theorem C40_lines line : exists it, item_of line it.
Proof.
  destruct (N.eq_dec (hd 0 line) 35) as [H|H].
  - destruct (nameOf_header line) as [n|] eqn:E.
    + apply (name_header line n H) in E. destruct (assigns_dec line) as [(k & w & A)|A]; [exists (CHeadSet n k w); split; assumption|exists (CHead n); split; assumption].
    + exists CSkip. left. split; [exact H|]. intros (n & A). apply header_name in A. congruence.
  - destruct (assigns_dec line) as [(k & w & A)|A]; [exists (CSet k w); split; assumption|exists CSkip; right; split; assumption].
Qed.
Definition item_step (it : citem) (s : pstate) : pstate :=
  match it with
  | CHead n => mkP (flush s) [] n
  | CHeadSet n k w => mkP (flush s) [(k, w)] n
  | CSet k w => mkP (p_all s) ((k, w) :: p_cur s) (p_name s)
  | CSkip => s
  end.
Lemma header_hd line n : header line n -> exists t, line = 35 :: t. Proof. intros (a & b & -> & _). eauto. Qed.
Lemma read_item line it s : item_of line it -> read_line s line = item_step it s.
Proof.
  destruct it as [n|n k w|k w|]; cbn [item_of item_step].
  - intros (H & A). destruct (header_hd line n H) as (t & ->). unfold read_line. change (35 =? 35) with true. cbv iota. rewrite (header_name _ n H). apply no_assign. exact A.
  - intros (H & A). destruct (header_hd line n H) as (t & ->). unfold read_line. change (35 =? 35) with true. cbv iota. rewrite (header_name _ n H). rewrite (assigns_do _ k w _ A). reflexivity.
  - intros (H & A). destruct line as [|c t]; [destruct A as (t & E & Hk & _); destruct k; [congruence|discriminate E]|]. cbn in H. unfold read_line. rewrite (proj2 (N.eqb_neq c 35) H). apply assigns_do. exact A.
  - intros [(H & A)|(H & A)].
    + destruct line as [|c t]; [discriminate H|]. cbn in H. subst c. unfold read_line. change (35 =? 35) with true. cbv iota. destruct (nameOf_header (35 :: t)) as [n|] eqn:E; [|reflexivity]. exfalso. apply A. exists n. apply name_header; [reflexivity|exact E].
    + destruct line as [|c t]; [reflexivity|]. cbn in H. unfold read_line. rewrite (proj2 (N.eqb_neq c 35) H). apply no_assign. exact A.
Qed.
Lemma read_items lines its : Forall2 item_of lines its -> forall s, fold_left read_line lines s = fold_left (fun s it => item_step it s) its s.
Proof. induction 1 as [|l it lines its H F IH]; intro s; [reflexivity|]. cbn [fold_left]. rewrite (read_item l it s H). apply IH. Qed.

(* ---------- sections ---------- *)
Definition merge_sec (all : assoc profile) (s : bytes * list (bytes * bytes)) : assoc profile := flush (mkP all (rev (snd s)) (fst s)).
Lemma run_sections its : forall all cur n, fold_left (fun s it => item_step it s) its (mkP all (rev cur) n) =
  let (a, b) := sections n cur its in mkP (fold_left merge_sec a all) (rev (snd b)) (fst b).
Proof.
  induction its as [|it its IH]; intros all cur n; [reflexivity|]. cbn [fold_left sections]. destruct it as [m|m k w|k w|]; cbn [item_step p_all p_cur p_name].
  - assert (X := IH (flush (mkP all (rev cur) n)) [] m). cbn [rev] in X. rewrite X. destruct (sections m [] its) as (a, b). reflexivity.
  - assert (X := IH (flush (mkP all (rev cur) n)) [(k, w)] m). cbn [rev app] in X. rewrite X. destruct (sections m [(k, w)] its) as (a, b). reflexivity.
  - replace ((k, w) :: rev cur) with (rev (cur ++ [(k, w)])) by (rewrite rev_app_distr; reflexivity). apply IH.
  - apply IH.
Qed.
Lemma merge_table all s n x : table_of (merge_sec all s) n x = first_some [table_of all n x; section_value n x s].
Proof.
  destruct s as (m, l). unfold merge_sec, flush. cbn [p_cur p_all p_name fst snd]. destruct (rev l) eqn:E.
  - assert (l = []) as -> by (rewrite <- (rev_involutive l), E; reflexivity). unfold section_value. cbn [last_value fst snd]. destruct (list_eq_dec N.eq_dec m n); cbn [first_some]; destruct (table_of all n x); reflexivity.
  - rewrite <- E. clear E. unfold table_of at 1. rewrite lookup_cons. unfold beq, section_value. cbn [fst snd]. destruct (list_eq_dec N.eq_dec m n) as [->|H].
    + unfold table_of. destruct (lookup all n) as [q|]; [rewrite lookup_app|]; rewrite lookup_rev; [reflexivity|]. cbn [first_some]. destruct (last_value l x); reflexivity.
    + transitivity (table_of all n x); [reflexivity|]. cbn [first_some]. destruct (table_of all n x); reflexivity.
Qed.
Lemma merge_all secs n x : forall all, table_of (fold_left merge_sec secs all) n x = first_some (table_of all n x :: map (section_value n x) secs).
Proof.
  induction secs as [|s secs IH]; intro all; [cbn; destruct (table_of all n x); reflexivity|]. cbn [fold_left map]. rewrite IH, merge_table. cbn [first_some]. destruct (table_of all n x); [reflexivity|]. destruct (section_value n x s); reflexivity.
Qed.
(* C40: what a file (any text at all) contributes to the profiles.  Its lines are items (C40_lines), its items form
   sections.  The last section replaces a profile of the same name.  The other sections only add the variables
   that the profile does not have yet. *)
Theorem C40_file lines t its secs last n x all : Forall (fun l => ~ In 10 l) lines -> ~ In 10 t ->
  Forall2 item_of (lines ++ match t with [] => [] | _ => [t] end) its -> sections (bs "default") [] its = (secs, last) ->
  table_of (read_profiles (flat_map (fun l => l ++ [10]) lines ++ t) all) n x =
  if list_eq_dec N.eq_dec (fst last) n then
    match snd last with
    | [] => first_some (table_of all n x :: map (section_value n x) secs)
    | l => last_value l x
    end
  else first_some (table_of all n x :: map (section_value n x) secs).
Proof.
  intros F Ht H S. unfold read_profiles. rewrite (getlines_all lines F t Ht), (read_items _ its H). change (mkP all [] n_default) with (mkP all (rev []) (bs "default")). rewrite run_sections, S. cbn [p_cur p_all p_name].
  destruct last as (m, l). cbn [fst snd]. destruct (rev l) eqn:E.
  - assert (l = []) as -> by (rewrite <- (rev_involutive l), E; reflexivity). rewrite merge_all. destruct (list_eq_dec N.eq_dec m n); reflexivity.
  - assert (l <> []) by (intros ->; discriminate E). rewrite <- E. clear E. unfold table_of at 1. rewrite lookup_cons. unfold beq. destruct (list_eq_dec N.eq_dec m n) as [->|Hm].
    + rewrite lookup_rev. destruct l; [congruence|reflexivity].
    + transitivity (table_of (fold_left merge_sec secs all) n x); [reflexivity|apply merge_all].
Qed.
(* with different section names that are not in use yet every profile has exactly the values of its section *)
Theorem C40_file_distinct lines t its secs last n l x all : Forall (fun l => ~ In 10 l) lines -> ~ In 10 t ->
  Forall2 item_of (lines ++ match t with [] => [] | _ => [t] end) its -> sections (bs "default") [] its = (secs, last) ->
  NoDup (map fst (secs ++ [last])) -> (forall m y, In m (map fst (secs ++ [last])) -> table_of all m y = None) -> In (n, l) (secs ++ [last]) ->
  table_of (read_profiles (flat_map (fun l => l ++ [10]) lines ++ t) all) n x = last_value l x.
Proof.
  intros F Ht H S ND Nw Hin. rewrite (C40_file lines t its secs last n x all F Ht H S).
  assert (T : table_of all n x = None) by (apply Nw; change n with (fst (n, l)); apply in_map; exact Hin).
  assert (G : forall secs', NoDup (map fst secs') -> (In (n, l) secs' -> first_some (map (section_value n x) secs') = last_value l x) /\ (~ In n (map fst secs') -> first_some (map (section_value n x) secs') = None)).
  { induction secs' as [|(m, q) r IH]; intro N; [split; [intros []|reflexivity]|]. cbn [map fst] in N. apply NoDup_cons_iff in N as (N1 & N2). destruct (IH N2) as (I1 & I2). split.
    - intros [E|E]; cbn [map]; unfold section_value at 1; cbn [fst snd].
      + injection E as -> ->. destruct (list_eq_dec N.eq_dec n n); [|congruence]. cbn [first_some]. destruct (last_value l x); [reflexivity|apply I2; exact N1].
      + destruct (list_eq_dec N.eq_dec m n) as [->|]; [exfalso; apply N1; change n with (fst (n, l)); apply in_map; exact E|cbn [first_some]; exact (I1 E)].
    - intro Ni. cbn [map fst snd] in *. unfold section_value at 1; cbn [fst snd]. destruct (list_eq_dec N.eq_dec m n) as [->|]; [exfalso; apply Ni; left; reflexivity|]. cbn [first_some]. apply I2. intro X. apply Ni. right. exact X. }
  rewrite map_app in ND. cbn [map] in ND. assert (ND1 : NoDup (map fst secs)) by (apply NoDup_remove_1 in ND; rewrite app_nil_r in ND; exact ND). assert (ND2 : ~ In (fst last) (map fst secs)) by (apply NoDup_remove_2 in ND; rewrite app_nil_r in ND; exact ND).
  destruct (G secs ND1) as (G1 & G2). cbn [first_some]. rewrite T. apply in_app_iff in Hin as [Hin|[->|[]]].
  - destruct (list_eq_dec N.eq_dec (fst last) n) as [E|]; [exfalso; apply ND2; rewrite E; change n with (fst (n, l)); apply in_map; exact Hin|apply G1; exact Hin].
  - cbn [fst snd] in *. destruct (list_eq_dec N.eq_dec n n); [|congruence]. destruct l; [apply G2; exact ND2|reflexivity].
Qed.
