(* C70: format strings *)
From Verif Require Import Base VariantModel VariantSpec NamesModel NamesProps TextModel TextProofs TextProofs2 FmtStrModel FmtStrSpec.
Open Scope N_scope.

Lemma split_acc sep s : forall str, ~ In sep s -> split_go sep s str = match str ++ s with [] => [] | _ => [str ++ s] end.
Proof.
  induction s as [|c s IH]; intros str H; cbn [split_go]; [rewrite app_nil_r; auto|]. destruct (N.eqb_spec c sep) as [->|Hc]; [exfalso; apply H; left; auto|].
  rewrite IH by (intro; apply H; right; auto). rewrite <- app_assoc. reflexivity.
Qed.
Lemma split_cons sep s r : forall str, ~ In sep s -> split_go sep (s ++ sep :: r) str = (str ++ s) :: split_go sep r [].
Proof.
  induction s as [|c s IH]; intros str H; cbn [split_go app]; [rewrite N.eqb_refl, app_nil_r; auto|]. destruct (N.eqb_spec c sep) as [->|Hc]; [exfalso; apply H; left; auto|].
  rewrite IH by (intro; apply H; right; auto). rewrite <- app_assoc. reflexivity.
Qed.
Lemma split_field pre body r : ~ In c_pct pre -> ~ In c_pct body -> split c_pct (pre ++ [c_pct] ++ body ++ [c_pct] ++ r) = pre :: body :: split c_pct r.
Proof. intros H1 H2. unfold split. cbn [app]. rewrite (split_cons c_pct pre _ [] H1), (split_cons c_pct body _ [] H2). reflexivity. Qed.
Definition plain_txt (s : bytes) : Prop := ~ In c_lb s /\ ~ In c_rb s.
Lemma tok_go_plain s r : plain_txt s -> forall str, tok_go (s ++ r) str = tok_go r (str ++ s).
Proof.
  induction s as [|c s IH]; intros (H1 & H2) str; cbn [app tok_go]; [rewrite app_nil_r; auto|].
  destruct (N.eqb_spec c c_lb) as [->|N1]; [exfalso; apply H1; left; auto|]. destruct (N.eqb_spec c c_rb) as [->|N2]; [exfalso; apply H2; left; auto|].
  cbn [orb]. rewrite IH by (split; intro; [apply H1|apply H2]; right; auto). rewrite <- app_assoc. reflexivity.
Qed.
Lemma tok_name n : plain_txt n -> n <> [] -> tokenize n = [n].
Proof. intros H Hn. unfold tokenize. rewrite <- (app_nil_r n) at 1. rewrite tok_go_plain by auto. cbn [tok_go app]. destruct n; congruence. Qed.
Lemma tok_first d n : plain_txt d -> d <> [] -> plain_txt n -> n <> [] -> tokenize ([c_lb] ++ d ++ [c_rb] ++ n) = [[c_lb]; d; [c_rb]; n].
Proof.
  intros D Dn H Hn. unfold tokenize. cbn [app tok_go]. change (c_lb =? c_lb) with true. cbn [orb]. cbn [app]. f_equal. rewrite (tok_go_plain d (c_rb :: n) D []). cbn [app].
  cbn [tok_go]. change ((c_rb =? c_lb) || (c_rb =? c_rb)) with true. cbn iota. destruct d as [|x d]; [congruence|]. cbn [app]. f_equal. f_equal. apply tok_name; auto.
Qed.
Lemma tok_last d n : plain_txt d -> d <> [] -> plain_txt n -> n <> [] -> tokenize (n ++ [c_lb] ++ d ++ [c_rb]) = [n; [c_lb]; d; [c_rb]].
Proof.
  intros D Dn H Hn. unfold tokenize. rewrite (tok_go_plain n _ H []). cbn [app]. cbn [tok_go]. change ((c_lb =? c_lb) || (c_lb =? c_rb)) with true. cbn iota.
  destruct n as [|y n]; [congruence|]. cbn [app]. f_equal. f_equal. rewrite (tok_go_plain d [c_rb] D []). cbn [app].
  cbn [tok_go]. change ((c_rb =? c_lb) || (c_rb =? c_rb)) with true. cbn iota. destruct d as [|x d]; [congruence|]. reflexivity.
Qed.
Lemma beqb_plain (s : bytes) c : ~ In c s -> beqb s [c] = false.
Proof. intro H. destruct (beqb s [c]) eqn:E; auto. apply beqb_eq in E. subst s. exfalso. apply H. left; auto. Qed.
Lemma beqb_refl (s : bytes) : beqb s s = true. Proof. apply beqb_eq. reflexivity. Qed.
Lemma dec_plain w : w < W64 -> plain_txt (dec w) /\ dec w <> [] /\ ~ In c_pct (dec w) /\ ~ In 0 (dec w).
Proof.
  intro H. destruct (dec_spec w H) as (_ & Hn & Hf & _). rewrite Forall_forall in Hf.
  assert (X : forall c, In c (dec w) -> 48 <= c <= 57) by (intros c Hc; apply (proj1 (dchar10 c (Hf c Hc)))).
  split; [split|]; [| |split; [auto|split]]; intro Z; apply X in Z; unfold c_lb, c_rb, c_pct in Z; lia.
Qed.
Lemma cstr_id s : ~ In 0 s -> cstr s = s.
Proof. induction s as [|c s IH]; cbn; intro H; auto. destruct (N.eqb_spec c 0) as [->|]; [exfalso; apply H; auto|]. rewrite IH; auto. Qed.
Lemma stoi_dec w : w <= 2147483647 -> stoi (dec w) = Some (Z.of_N w).
Proof.
  intro H. assert (Hw : w < W64) by (unfold W64; lia). destruct (dec_plain w Hw) as (_ & _ & _ & H0). unfold stoi. rewrite (cstr_id _ H0).
  pose proof (strtoll_int (fun _ => []) (fun _ => None) (Z.of_N w)) as S. assert (S0 : s64_ok (Z.of_N w)) by (unfold s64_ok; lia). specialize (S S0).
  destruct (Z.ltb_spec (Z.of_N w) 0); [lia|]. rewrite N2Z.id in S. rewrite S.
  destruct (Z.leb_spec (-2147483648) (Z.of_N w)); [|lia]. destruct (Z.leb_spec (Z.of_N w) 2147483647); [|lia]. reflexivity.
Qed.

Definition body_of (n : bytes) (w : option N) (first : bool) : bytes :=
  match w with None => n | Some k => if first then [c_lb] ++ dec k ++ [c_rb] ++ n else n ++ [c_lb] ++ dec k ++ [c_rb] end.
Definition width_of (w : option N) : Z := match w with Some k => Z.of_N k | None => 0%Z end.
Lemma item_src_fld n w first : item_src (Fld n w first) = [c_pct] ++ body_of n w first ++ [c_pct].
Proof. destruct w as [k|]; [destruct first|]; cbn [item_src body_of]; rewrite <- ?app_assoc; reflexivity. Qed.
Lemma parse_field_ok pre n w first : item_ok (Fld n w first) -> ~ In c_pct (body_of n w first) /\ parse_field pre (body_of n w first) = Some (mkfld pre n (width_of w)).
Proof.
  intros (Hn & Hp & Hl & Hr & Hw). assert (Pn : plain_txt n) by (split; auto). destruct w as [k|]; cbn [body_of width_of].
  - assert (Hk : k < W64) by (unfold W64; lia). destruct (dec_plain k Hk) as (Pd & Hd & Hdp & _). pose proof (stoi_dec k ltac:(lia)) as Hs.
    set (dk := dec k) in *. clearbody dk. set (zk := Z.of_N k) in *. clearbody zk.
    assert (L1 : beqb n [c_lb] = false) by (apply beqb_plain; auto). assert (L2 : beqb n [c_rb] = false) by (apply beqb_plain; auto).
    assert (L3 : beqb dk [c_lb] = false) by (apply beqb_plain; apply Pd). assert (L4 : beqb dk [c_rb] = false) by (apply beqb_plain; apply Pd).
    assert (L5 : beqb [c_lb] [c_lb] = true) by reflexivity. assert (L6 : beqb [c_rb] [c_lb] = false) by reflexivity. assert (L7 : beqb [c_lb] [c_rb] = false) by reflexivity. assert (L8 : beqb [c_rb] [c_rb] = true) by reflexivity.
    destruct first.
    + split. { cbn [app]. intros [Z|Z]; [discriminate|]. apply in_app_or in Z as [Z|Z]; [auto|]. destruct Z as [Z|Z]; [discriminate|auto]. }
      unfold parse_field. rewrite (tok_first _ _ Pd Hd Pn Hn). cbn [last_pos length]. rewrite L1, L2, L3, L4, L5, L6, L7, L8. lazy -[stoi c_lb c_rb]. rewrite Hs. reflexivity.
    + split. { intros Z. apply in_app_or in Z as [Z|Z]; [auto|]. apply in_app_or in Z as [Z|Z]; [destruct Z as [Z|[]]; discriminate|]. apply in_app_or in Z as [Z|Z]; [auto|]. destruct Z as [Z|[]]; discriminate. }
      unfold parse_field. rewrite (tok_last _ _ Pd Hd Pn Hn). cbn [last_pos length]. rewrite L1, L2, L3, L4, L5, L6, L7, L8. lazy -[stoi c_lb c_rb]. rewrite Hs. reflexivity.
  - split; auto. unfold parse_field. rewrite (tok_name _ Pn Hn). cbn [last_pos length].
    assert (L1 : beqb n [c_lb] = false) by (apply beqb_plain; auto). assert (L2 : beqb n [c_rb] = false) by (apply beqb_plain; auto). rewrite L1, L2. reflexivity.
Qed.

(* the fields of a template: literals are attached to the next field *)
Fixpoint flds (acc : bytes) (l : list item) : list field :=
  match l with
  | [] => match acc with [] => [] | _ => [mkfld acc [] 0] end
  | Lit t :: r => flds (acc ++ t) r
  | Fld n w _ :: r => mkfld acc n (width_of w) :: flds [] r
  end.
Lemma parse_template l : Forall item_ok l -> forall acc, ~ In c_pct acc -> parse (acc ++ template l) = Some (flds acc l).
Proof.
  unfold parse. induction 1 as [|i l Hi Hl IH]; intros acc Ha.
  - cbn. rewrite app_nil_r. unfold split. rewrite split_acc by auto. destruct acc; reflexivity.
  - unfold template. cbn [map concat]. fold (template l). destruct i as [t|n w first].
    + cbn [item_src flds]. rewrite app_assoc. apply IH. intro Z. apply in_app_or in Z as [Z|Z]; auto.
    + destruct (parse_field_ok acc n w first Hi) as (Hb & Hp). rewrite item_src_fld, <- !app_assoc, split_field by auto. cbn [parse_parts]. rewrite Hp.
      specialize (IH [] ltac:(intros [])). cbn [app] in IH. rewrite IH. reflexivity.
Qed.

(* values *)
Lemma ref_text_spec id p : ~ In [] (map snd (filter (fun n => fst n =? id) p)) -> forall acc, ~ In [] acc ->
  ref_text id p (slashed acc) = slashed (rev (map snd (filter (fun n : N * bytes => fst n =? id) p)) ++ acc).
Proof.
  induction p as [|[a v] p IH]; intros H acc Ha; cbn [ref_text filter fst]; [reflexivity|]. cbn [filter fst] in H.
  destruct (a =? id); [|apply IH; auto]. cbn [map snd rev] in *. rewrite <- app_assoc. cbn [app].
  assert (Ev : v ++ match slashed acc with [] => [] | _ => [c_sl] end ++ slashed acc = slashed (v :: acc)).
  { destruct acc as [|w acc]; [cbn; rewrite app_nil_r; reflexivity|]. assert (Hw : slashed (w :: acc) <> []).
    { cbn. destruct acc; [intros ->; apply Ha; left; auto|]. intro Z. destruct w; [apply Ha; left; auto|discriminate]. }
    change (slashed (v :: w :: acc)) with (v ++ [c_sl] ++ slashed (w :: acc)). destruct (slashed (w :: acc)); congruence. }
  rewrite Ev. apply (IH ltac:(intro; apply H; right; auto) (v :: acc)). intros [->|Z]; auto. apply H. left; auto.
Qed.
Lemma ref_text_rev id p : ~ In [] (entry_values id (FRef p)) -> ref_text id p [] = slashed (entry_values id (FRef p)).
Proof.
  intro H. cbn [entry_values] in *. change (@nil N) with (slashed []). rewrite ref_text_spec.
  - rewrite app_nil_r. reflexivity.
  - intro Z. apply H. apply -> in_rev. exact Z.
  - intros [].
Qed.
Lemma has_attr_values id e : has_attr id e = negb match entry_values id e with [] => true | _ => false end.
Proof.
  destruct e as [p|a v|]; cbn [has_attr entry_values]; [|destruct (a =? id); reflexivity|reflexivity].
  assert (E : existsb (fun n => fst n =? id) p = negb match filter (fun n : N * bytes => fst n =? id) p with [] => true | _ => false end).
  { induction p as [|n p IH]; [reflexivity|]. cbn [existsb filter]. destruct (fst n =? id); auto. }
  rewrite E. destruct (filter _ p) as [|n r]; [reflexivity|]. cbn [map rev]. destruct (rev (map snd r)); reflexivity.
Qed.
Lemma find_filter {A} (f : A -> bool) l : find f l = match filter f l with x :: _ => Some x | [] => None end.
Proof. induction l as [|x l IH]; [reflexivity|]. cbn. destruct (f x); auto. Qed.
Lemma find_text_shown id ty db rec name : with_text rec -> db name = Some (id, ty) -> find_text id rec = shown db rec name.
Proof.
  intros Hw Hd. unfold find_text, shown. rewrite Hd, find_filter. rewrite (filter_ext _ _ (has_attr_values id)).
  destruct (filter _ rec) as [|e r] eqn:Ef; [reflexivity|].
  assert (He : In e (filter (fun e => negb match entry_values id e with [] => true | _ => false end) rec)) by (rewrite Ef; left; auto).
  apply filter_In in He as (He & Hne). destruct e as [p|a v|]; [apply ref_text_rev; apply Hw; auto| |discriminate].
  cbn [entry_values] in *. destruct (a =? id); [reflexivity|discriminate].
Qed.
Lemma first_text_shown id ty db rec name : with_text rec -> db name = Some (id, ty) -> first_text id rec = shown db rec name.
Proof.
  intros Hw Hd. unfold shown. rewrite Hd. clear Hd. induction rec as [|e rec IH]; [reflexivity|]. cbn [first_text filter].
  assert (Et : ent_text id e = slashed (entry_values id e)).
  { destruct e as [p|a v|]; [apply ref_text_rev; apply Hw; left; auto|cbn; destruct (a =? id); reflexivity|reflexivity]. }
  assert (IH' : first_text id rec = match filter (fun e => negb match entry_values id e with [] => true | _ => false end) rec with e :: _ => slashed (entry_values id e) | [] => [] end).
  { apply IH. intros i x Hx. apply Hw. right; auto. }
  rewrite Et. destruct (entry_values id e) as [|v r] eqn:Ev; cbn [negb]; [exact IH'|].
  assert (Hv : v <> []) by (intros ->; apply (Hw id e (or_introl eq_refl)); rewrite Ev; left; auto). cbn [slashed]. rewrite Ev. cbn [slashed].
  destruct r; [destruct v; congruence|]. destruct v as [|x v]; [congruence|]. reflexivity.
Qed.
Lemma is_num_numeric db name id ty : db name = Some (id, ty) -> is_num ty = numeric db name.
Proof.
  intro H. unfold numeric. rewrite H. unfold is_num. cbn [existsb]. rewrite orb_false_r.
  destruct (ty =? T_DOUBLE), (ty =? T_INT), (ty =? T_UINT), (ty =? T_ADDR); reflexivity.
Qed.
Lemma pad_blanks w (v : bytes) : match w with Some k => k <= 80 | None => True end ->
  spaces (if Z.of_nat (length v) <? width_of w then Z.min (width_of w - Z.of_nat (length v)) 80 else 0)%Z = blanks w v.
Proof.
  intro H. unfold spaces, blanks. f_equal. destruct w as [k|]; cbn [width_of].
  - destruct (Z.ltb_spec (Z.of_nat (length v)) (Z.of_N k)); lia.
  - destruct (Z.ltb_spec (Z.of_nat (length v)) 0); lia.
Qed.
(* SnapshotTextFormatter on a template *)
Definition knows (db : fdb) (fs : list field) (sfs : list sfield) : Prop :=
  Forall2 (fun f s => s_fld s = f /\ ((s_pend s = false /\ f_name f = [] /\ s_attr s = None /\ s_right s = false) \/
    (f_name f <> [] /\ (s_pend s = true \/ (s_pend s = false /\ s_attr s = db (f_name f) /\ s_right s = match db (f_name f) with Some (_, ty) => is_num ty | None => false end))))) fs sfs.
Lemma knows_init db fs : knows db fs (map sf_init fs).
Proof. induction fs as [|f fs IH]; constructor; auto. split; [reflexivity|]. unfold sf_init. cbn. destruct (f_name f); [left; auto|right]. split; [discriminate|auto]. Qed.
Lemma knows_print db rec fs sfs : knows db fs sfs ->
  fst (sprint sfs db rec) = concat (map (fun f => print_field (mksf f false (match f_name f with [] => None | _ => db (f_name f) end)
    (match f_name f with [] => false | _ => match db (f_name f) with Some (_, ty) => is_num ty | None => false end end)) rec) fs) /\ knows db fs (snd (sprint sfs db rec)).
Proof.
  unfold sprint. cbn [fst snd]. induction 1 as [|f s fs sfs (H1 & H2) HF (IH1 & IH2)]; [split; [reflexivity|constructor]|]. cbn [map concat].
  assert (El : lookup db s = mksf f false (match f_name f with [] => None | _ => db (f_name f) end) (match f_name f with [] => false | _ => match db (f_name f) with Some (_, ty) => is_num ty | None => false end end)).
  { unfold lookup. destruct H2 as [(A1 & A2 & A3 & A4)|(A1 & [A2|(A2 & A3 & A4)])]; rewrite ?A2.
    - rewrite A1. destruct s as [sf sp sa sr]; cbn in *. congruence.
    - rewrite H1. destruct (f_name f) eqn:E; [congruence|]. reflexivity.
    - destruct s as [sf sp sa sr]; cbn in *. destruct (f_name f); congruence. }
  rewrite El, IH1. split; [reflexivity|]. constructor; auto. split; [reflexivity|]. cbn. destruct (f_name f); [left; auto|right]. split; [discriminate|]. right. auto.
Qed.
Lemma knows_ext db db' fs sfs : (forall f, In f fs -> db (f_name f) = db' (f_name f)) -> knows db fs sfs -> knows db' fs sfs.
Proof.
  intros H K. induction K as [|f s fs sfs (H1 & H2) HF IH]; [constructor|]. constructor; [|apply IH; intros; apply H; right; auto]. split; auto.
  rewrite <- (H f (or_introl eq_refl)). exact H2.
Qed.
Lemma knows_ext' db db' fs sfs : (forall f, In f fs -> f_name f <> [] -> db (f_name f) = db' (f_name f)) -> knows db fs sfs -> knows db' fs sfs.
Proof.
  intros H K. induction K as [|f s fs sfs (H1 & H2) HF IH]; [constructor|]. constructor; [|apply IH; intros; apply H; auto; right; auto]. split; auto.
  destruct H2 as [Z|(Z & H2)]; [left; auto|right]. split; auto. rewrite <- (H f (or_introl eq_refl) Z). exact H2.
Qed.
Lemma flds_print db rec l : Forall item_ok l -> with_text rec -> forall acc,
  concat (map (fun f => print_field (mksf f false (match f_name f with [] => None | _ => db (f_name f) end)
    (match f_name f with [] => false | _ => match db (f_name f) with Some (_, ty) => is_num ty | None => false end end)) rec) (flds acc l)) = acc ++ expected true db rec l.
Proof.
  intros Hl Hw. induction Hl as [|i l Hi Hl IH]; intro acc; cbn [flds].
  - unfold expected. cbn. rewrite app_nil_r. destruct acc as [|x acc]; [reflexivity|]. cbn. rewrite !app_nil_r. reflexivity.
  - destruct i as [t|n w first].
    + rewrite IH. unfold expected. cbn [map concat item_out]. rewrite app_assoc. reflexivity.
    + cbn [map concat]. rewrite IH. unfold expected. cbn [map concat item_out app]. cbn [f_name]. destruct Hi as (Hn & _ & _ & _ & Hk). destruct n as [|x n]; [congruence|].
      set (nm := x :: n) in *. unfold print_field. cbn [s_attr s_right s_fld f_pre f_width].
      destruct (db nm) as [[id ty]|] eqn:Ed.
      * rewrite (find_text_shown id ty db rec nm Hw Ed), (pad_blanks w (shown db rec nm) Hk), (is_num_numeric db nm id ty Ed). cbn [andb].
        destruct (numeric db nm); rewrite <- !app_assoc; reflexivity.
      * assert (En : numeric db nm = false) by (unfold numeric; rewrite Ed; reflexivity). assert (Es : shown db rec nm = []) by (unfold shown; rewrite Ed; reflexivity).
        rewrite En, Es. cbn [andb]. pose proof (pad_blanks w [] Hk) as P. cbn [length Z.of_nat] in *. rewrite P. cbn [app]. rewrite <- !app_assoc. reflexivity.
Qed.
Lemma flds_uprint db rec l : Forall item_ok l -> with_text rec -> db [] = None -> forall acc, concat (map (uprint_field db rec) (flds acc l)) = acc ++ expected false db rec l.
Proof.
  intros Hl Hw Hdb. induction Hl as [|i l Hi Hl IH]; intro acc; cbn [flds].
  - unfold expected. cbn. rewrite app_nil_r. destruct acc as [|x acc]; [reflexivity|]. cbn. unfold uprint_field. cbn. rewrite Hdb. cbn. rewrite !app_nil_r. reflexivity.
  - destruct i as [t|n w first].
    + rewrite IH. unfold expected. cbn [map concat item_out]. rewrite app_assoc. reflexivity.
    + cbn [map concat]. rewrite IH. unfold expected. cbn [map concat item_out app andb]. destruct Hi as (Hn & _ & _ & _ & Hk). unfold uprint_field. cbn [f_name f_pre f_width].
      assert (Ew : (width_of w mod W64Z)%Z = width_of w). { apply Z.mod_small. unfold W64Z. destruct w as [k|]; cbn [width_of]; lia. }
      rewrite Ew. assert (Es : match db n with Some (id, _) => first_text id rec | None => [] end = shown db rec n).
      { destruct (db n) as [[id ty]|] eqn:Ed; [eapply first_text_shown; eauto|]. unfold shown. rewrite Ed. reflexivity. }
      rewrite Es, (pad_blanks w (shown db rec n) Hk), <- !app_assoc. reflexivity.
Qed.
