(* C70: format strings print what they say. *)
From Coq Require Import String.
From Verif Require Import Base VariantModel VariantSpec NamesModel NamesProps TextModel TextProofs TextProofs2 RConfigModel FmtStrModel FmtStrSpec FmtStrProofs.
Import ListNotations.
Open Scope N_scope.
Open Scope list_scope.

(* FORMAT format(...): for every template and all records, the title and one line per record with the
   literals and the padded values *)
Theorem C70_user_format : forall l title db recs, Forall item_ok l -> Forall with_text recs -> db [] = None ->
  uoutput (template l) title db recs =
  Some ((match title with Some t => t ++ [c_nl] | None => [] end) ++ concat (map (fun rec => expected false db rec l ++ [c_nl]) recs)).
Proof.
  intros l title db recs Hl Hr Hdb. unfold uoutput. pose proof (parse_template l Hl [] ltac:(intros [])) as P. cbn [app] in P. rewrite P. f_equal. f_equal. f_equal.
  apply map_ext_in. intros rec Hin. unfold uprint. rewrite (flds_uprint db rec l Hl (proj1 (Forall_forall _ _) Hr rec Hin) Hdb []). reflexivity.
Qed.
(* the snapshot text formatter, printing any number of records while attributes are being created,
   provided the attributes of the template are known when the first one is printed *)
Theorem C70_snapshot_text : forall l fs jobs db0, Forall item_ok l -> parse (template l) = Some fs -> Forall (fun j => with_text (snd j)) jobs ->
  (forall n w b j, In (Fld n w b) l -> In j jobs -> fst j n = db0 n) ->
  sprints (map sf_init fs) jobs = map (fun j => expected true (fst j) (snd j) l) jobs.
Proof.
  intros l fs jobs db0 Hl Hp Hw Hdb. pose proof (parse_template l Hl [] ltac:(intros [])) as P. cbn [app] in P. rewrite P in Hp. injection Hp as <-.
  assert (Hn : forall acc f, In f (flds acc l) -> f_name f = [] \/ exists n w b, In (Fld n w b) l /\ f_name f = n).
  { clear. induction l as [|i l IH]; intros acc f Hf; cbn [flds] in Hf.
    - destruct acc; [contradiction|]. destruct Hf as [<-|[]]. left; reflexivity.
    - destruct i as [t|n w b]; [destruct (IH _ _ Hf) as [Z|(n & w & b & H1 & H2)]; [left; auto|right; exists n, w, b; split; [right|]; auto]|].
      destruct Hf as [<-|Hf]; [right; exists n, w, b; split; [left|]; auto|]. destruct (IH _ _ Hf) as [Z|(n' & w' & b' & H1 & H2)]; [left; auto|right; exists n', w', b'; split; [right|]; auto]. }
  assert (K : forall sfs, (forall db, In db (map fst jobs) -> knows db (flds [] l) sfs) -> sprints sfs jobs = map (fun j => expected true (fst j) (snd j) l) jobs).
  { induction jobs as [|[db rec] jobs IH]; intros sfs Hk; [reflexivity|]. cbn [sprints map fst snd].
    pose proof (Forall_inv Hw) as Hw1. apply Forall_inv_tail in Hw. cbn [snd] in Hw1.
    destruct (knows_print db rec _ sfs (Hk db ltac:(left; auto))) as (E1 & E2). destruct (sprint sfs db rec) as [t sfs1]. cbn [fst snd] in *.
    rewrite E1, (flds_print db rec l Hl Hw1 []). cbn [app]. f_equal. apply IH; auto; [intros n w b j Hi Hj; apply (Hdb n w b j Hi); right; auto|].
    intros db' Hd'. eapply knows_ext'; [|exact E2].
    intros f Hf Hne. destruct (Hn [] f Hf) as [Z|(n & w & b & H1 & H2)]; [congruence|]. rewrite H2. apply in_map_iff in Hd' as (j & <- & Hj).
    rewrite (Hdb n w b (db, rec) H1 ltac:(left; auto) : db n = db0 n). symmetry. apply (Hdb n w b j H1). right; auto. }
  apply K. intros db _. apply knows_init.
Qed.
(* output files: the name is the template with the values filled in *)
Theorem C70_file_name : forall l db rec, Forall item_ok l -> with_text rec -> template l <> bs "stdout" -> template l <> bs "stderr" ->
  set_filename (template l) db rec = Some (ToFile (expected true db rec l)).
Proof.
  intros l db rec Hl Hw H1 H2. unfold set_filename. destruct (beqb (template l) c_stdout) eqn:E1; [apply beqb_eq in E1; exfalso; apply H1; exact E1|].
  destruct (beqb (template l) c_stderr) eqn:E2; [apply beqb_eq in E2; exfalso; apply H2; exact E2|].
  pose proof (parse_template l Hl [] ltac:(intros [])) as P. cbn [app] in P. rewrite P. f_equal. f_equal.
  destruct (knows_print db rec (flds [] l) (map sf_init (flds [] l)) (knows_init db _)) as (-> & _). apply (flds_print db rec l Hl Hw []).
Qed.
(* processes with different values of the attribute in the name write to different files *)
Definition is_lit (i : item) : Prop := match i with Lit _ => True | Fld _ _ _ => False end.
Definition no_end_blank (v : bytes) : Prop := hd 0 v <> c_sp /\ last v 0 <> c_sp.
Lemma blanks_inj_l k1 k2 : forall (v1 v2 : bytes), hd 0 v1 <> c_sp -> hd 0 v2 <> c_sp -> repeat c_sp k1 ++ v1 = repeat c_sp k2 ++ v2 -> v1 = v2.
Proof.
  revert k2. induction k1 as [|k1 IH]; intros [|k2] v1 v2 H1 H2 E; cbn in E; auto.
  - subst v1. exfalso. apply H1. reflexivity.
  - subst v2. exfalso. apply H2. reflexivity.
  - injection E as E. eapply IH; eauto.
Qed.
Lemma rev_repeat {A} (x : A) k : rev (repeat x k) = repeat x k.
Proof. induction k; [reflexivity|]. cbn [repeat rev]. rewrite IHk. clear. induction k; [reflexivity|]. cbn. rewrite IHk. reflexivity. Qed.
Lemma hd_rev (v : bytes) d : hd d (rev v) = last v d.
Proof. induction v as [|x v IH] using rev_ind; [reflexivity|]. rewrite rev_app_distr. cbn. rewrite last_last. reflexivity. Qed.
Lemma blanks_inj_r k1 k2 (v1 v2 : bytes) : last v1 0 <> c_sp -> last v2 0 <> c_sp -> v1 ++ repeat c_sp k1 = v2 ++ repeat c_sp k2 -> v1 = v2.
Proof.
  intros H1 H2 E. apply (f_equal (@rev N)) in E. rewrite !rev_app_distr, !rev_repeat in E. apply blanks_inj_l in E; [|rewrite hd_rev; auto|rewrite hd_rev; auto].
  rewrite <- (rev_involutive v1), E. apply rev_involutive.
Qed.
Theorem C70_distinct_files : forall pre n w b post db rec1 rec2 f1 f2, Forall item_ok (pre ++ Fld n w b :: post) -> Forall is_lit pre -> Forall is_lit post ->
  with_text rec1 -> with_text rec2 -> no_end_blank (shown db rec1 n) -> no_end_blank (shown db rec2 n) ->
  set_filename (template (pre ++ Fld n w b :: post)) db rec1 = Some f1 -> set_filename (template (pre ++ Fld n w b :: post)) db rec2 = Some f2 ->
  shown db rec1 n <> shown db rec2 n -> f1 <> f2.
Proof.
  intros pre n w b post db rec1 rec2 f1 f2 Hl Hpre Hpost H1 H2 (B1 & B2) (C1 & C2) E1 E2 Hne Hf.
  assert (Hpct : In c_pct (template (pre ++ Fld n w b :: post))).
  { unfold template. rewrite map_app, concat_app. apply in_or_app. right. cbn [map concat]. apply in_or_app. left. rewrite item_src_fld. left. reflexivity. }
  assert (N1 : template (pre ++ Fld n w b :: post) <> bs "stdout") by (intro Z; rewrite Z in Hpct; vm_compute in Hpct; repeat (destruct Hpct as [Hpct|Hpct]; [discriminate|]); exact Hpct).
  assert (N2 : template (pre ++ Fld n w b :: post) <> bs "stderr") by (intro Z; rewrite Z in Hpct; vm_compute in Hpct; repeat (destruct Hpct as [Hpct|Hpct]; [discriminate|]); exact Hpct).
  rewrite (C70_file_name _ db rec1 Hl H1 N1 N2) in E1. rewrite (C70_file_name _ db rec2 Hl H2 N1 N2) in E2. injection E1 as <-. injection E2 as <-. injection Hf as Hf.
  unfold expected in Hf. rewrite !map_app, !concat_app in Hf. cbn [map concat] in Hf.
  assert (L : forall k, Forall is_lit k -> concat (map (item_out true db rec1) k) = concat (map (item_out true db rec2) k)).
  { intros k Hk. f_equal. apply map_ext_in. intros i Hi. rewrite Forall_forall in Hk. specialize (Hk i Hi). destruct i; [reflexivity|contradiction]. }
  rewrite (L pre Hpre), (L post Hpost) in Hf. apply app_inv_head in Hf. apply app_inv_tail in Hf. cbn [item_out] in Hf. cbn [andb] in Hf. unfold blanks in Hf.
  apply Hne. destruct (numeric db n); [eapply blanks_inj_l; eauto|eapply blanks_inj_r; eauto].
Qed.

(* what the code does not do *)
(* attributes that do not exist when the first record is printed never show up *)
Theorem C70_late_attribute_refuted : exists fs db1 db2 rec, parse (bs "x=%a%;") = Some fs /\ db1 (bs "a") = None /\ db2 (bs "a") = Some (20, T_STRING) /\
  sprints (map sf_init fs) [(db1, []); (db2, rec)] = [bs "x=;"; bs "x=;"] /\ shown db2 rec (bs "a") = bs "v".
Proof. exists [mkfld (bs "x=") (bs "a") 0; mkfld (bs ";") [] 0], (fun _ => None), (fun n => if beqb n (bs "a") then Some (20, T_STRING) else None), [FImm 20 (bs "v")]. vm_compute. auto 10. Qed.
(* the documented alignment letters are ignored *)
Theorem C70_alignment_refuted : exists db rec, uoutput (bs "%[3r]a%|") None db [rec] = Some (bs "v  |" ++ [c_nl]).
Proof. exists (fun n => if beqb n (bs "a") then Some (20, T_STRING) else None), [FImm 20 (bs "v")]. vm_compute. reflexivity. Qed.
(* at most 80 blanks are added *)
Theorem C70_wide_refuted : exists db rec out, uoutput (bs "%[100]a%") None db [rec] = Some (out ++ [c_nl]) /\ List.length out = 81%nat.
Proof. exists (fun n => if beqb n (bs "a") then Some (20, T_STRING) else None), [FImm 20 (bs "v")], (bs "v" ++ repeat c_sp 80). split; vm_compute; reflexivity. Qed.
(* a width that is not a number ends the program with an exception *)
Theorem C70_bad_width_refuted : parse (bs "%[w]a%") = None.
Proof. vm_compute. reflexivity. Qed.
(* percent signs cannot be printed *)
Theorem C70_percent_refuted : forall db rec, db [] = None -> uoutput (bs "50%% done") None db [rec] = Some (bs "50 done" ++ [c_nl]).
Proof. intros db rec H. unfold uoutput. replace (parse (bs "50%% done")) with (Some [mkfld (bs "50") [] 0; mkfld (bs " done") [] 0]) by (vm_compute; reflexivity). cbn. unfold uprint, uprint_field. cbn. rewrite H. reflexivity. Qed.

(* non-vacuity *)
Definition fx_db : fdb := fun n => if beqb n (bs "region") then Some (20, T_STRING) else if beqb n (bs "mpi.rank") then Some (21, T_INT) else None.
Definition fx_rec (r : bytes) : list fent := [FRef [(20, bs "foo"); (7, bs "x"); (20, bs "main")]; FImm 21 r].
Definition fx_items : list item := [Lit (bs "out/"); Fld (bs "region") None true; Lit (bs "-"); Fld (bs "mpi.rank") (Some 4) true; Lit (bs ".cali")].
Lemma fx_text r : r <> [] -> with_text (fx_rec r).
Proof. intros Hr id e [<-|[<-|[]]]; cbn; repeat match goal with |- context [if ?b then _ else _] => destruct b end; cbn; intuition congruence. Qed.
Definition no_ch (c : N) (s : bytes) : bool := negb (existsb (N.eqb c) s).
Lemma no_ch_ok c s : no_ch c s = true -> ~ In c s.
Proof. unfold no_ch. intros H Z. apply negb_true_iff in H. assert (existsb (N.eqb c) s = true) by (apply existsb_exists; exists c; split; auto; apply N.eqb_refl). congruence. Qed.
Lemma fx_ok : Forall item_ok fx_items.
Proof.
  repeat (apply Forall_cons; [|]); [apply no_ch_ok; reflexivity| |apply no_ch_ok; reflexivity| |apply no_ch_ok; reflexivity|constructor];
  (split; [discriminate|]; split; [apply no_ch_ok; reflexivity|]; split; [apply no_ch_ok; reflexivity|]; split; [apply no_ch_ok; reflexivity|]); [exact Logic.I|discriminate].
Qed.
Example C70_ex : Forall item_ok fx_items /\ with_text (fx_rec (bs "17")) /\ template fx_items = bs "out/%region%-%[4]mpi.rank%.cali" /\
  set_filename (template fx_items) fx_db (fx_rec (bs "17")) = Some (ToFile (bs "out/main/foo-  17.cali")).
Proof. split; [exact fx_ok|]. split; [apply fx_text; discriminate|]. split; vm_compute; reflexivity. Qed.
Example C70_ex2 : Forall item_ok ([Lit (bs "p-")] ++ Fld (bs "mpi.rank") None true :: [Lit (bs ".cali")]) /\ no_end_blank (shown fx_db (fx_rec (bs "3")) (bs "mpi.rank")) /\ shown fx_db (fx_rec (bs "3")) (bs "mpi.rank") <> shown fx_db (fx_rec (bs "4")) (bs "mpi.rank").
Proof.
  split; [|split; [split; vm_compute; discriminate|vm_compute; discriminate]].
  repeat (apply Forall_cons; [|]); [apply no_ch_ok; reflexivity| |apply no_ch_ok; reflexivity|constructor].
  split; [discriminate|]; split; [apply no_ch_ok; reflexivity|]; split; [apply no_ch_ok; reflexivity|]; split; [apply no_ch_ok; reflexivity|exact Logic.I].
Qed.
(* the two special names select the standard streams, and no other name does *)
Theorem C70_standard_streams db rec : set_filename (bs "stdout") db rec = Some ToStdout /\ set_filename (bs "stderr") db rec = Some ToStderr /\
  (forall fmt, fmt <> bs "stdout" -> fmt <> bs "stderr" -> set_filename fmt db rec <> Some ToStdout /\ set_filename fmt db rec <> Some ToStderr).
Proof.
  split; [reflexivity|]. split; [reflexivity|]. intros fmt H1 H2. unfold set_filename.
  destruct (beqb fmt c_stdout) eqn:E1; [apply beqb_eq in E1; contradiction|]. destruct (beqb fmt c_stderr) eqn:E2; [apply beqb_eq in E2; contradiction|].
  destruct (parse fmt); split; discriminate.
Qed.
