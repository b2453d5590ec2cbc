(* C89: symbol lookup *)
From Verif Require Import Base VariantModel TextModel SymModel.

(* the addresses of target attribute t on a path or in an entry, innermost first *)
Definition addrs (t : N) (p : path) : list N := map (fun e => to_uint (snd e)) (filter (fun e => is_target t (fst e)) p).
Definition entry_addrs (t : N) (e : entry) : list N := match e with Ref p => addrs t p | Imm t' v => if t' =? t then [to_uint v] else [] end.
(* those a record is asked about: its first entry that has any *)
Fixpoint first_addrs (t : N) (rec : list entry) : list N := match rec with [] => [] | e :: rec => match entry_addrs t e with [] => first_addrs t rec | l => l end end.
(* the symbols of one address: module, file, function, line, location, as far as asked for; on a path the last comes first *)
Definition symbols (lk : Lookup) (o : Opts) (t a : N) : path :=
  let r := lk 15 a in
  rev ((if o_mod o then [(SymOf KModule t, VText (r_mod r))] else []) ++ (if o_file o then [(SymOf KFile t, VText (r_file r))] else []) ++
       (if o_func o then [(SymOf KFunc t, VText (r_name r))] else []) ++ (if o_line o then [(SymOf KLine t, VNum (r_line r))] else []) ++
       (if o_loc o then [(SymOf KLoc t, VText (r_file r ++ [58] ++ dec (r_line r)))] else [])).
(* the lookup library answers what it is asked for; the question 15 asks for everything *)
Definition honest (lk : Lookup) : Prop := forall w a,
  (N.testbit w 0 = true -> r_name (lk w a) = r_name (lk 15 a)) /\ (N.testbit w 1 = true -> r_file (lk w a) = r_file (lk 15 a)) /\
  (N.testbit w 2 = true -> r_line (lk w a) = r_line (lk 15 a)) /\ (N.testbit w 3 = true -> r_mod (lk w a) = r_mod (lk 15 a)).
Definition some_option (o : Opts) : Prop := o_mod o || o_file o || o_func o || o_line o || o_loc o = true.
(* each address is recorded below one list of callers only *)
Definition one_caller (up : N -> N -> list N) (rec : list entry) : Prop :=
  forall t e inner a outer, In e rec -> entry_addrs t e = inner ++ a :: outer -> outer = up t a.

Lemma make_nodes_symbols lk o t a par : honest lk -> make_nodes lk o t a par = symbols lk o t a ++ par.
Proof.
  intros H. destruct (H (what o) a) as (A & B & C & D). unfold make_nodes, symbols, what in *.
  destruct (o_mod o), (o_file o), (o_func o), (o_line o), (o_loc o); cbv iota in *; repeat match goal with X : N.testbit _ _ = true -> _ |- _ => first [specialize (X eq_refl); rewrite ?X | clear X] end; reflexivity.
Qed.
(* what LookupLibdw gives is such a library, whatever the debug info *)
Theorem C89_library db : honest (libdw db).
Proof.
  intros w a. unfold libdw. destruct (db a) as [((name, src), md)|]; [|cbn; auto]. cbn [r_name r_file r_line r_mod].
  repeat split; intros H; rewrite ?H, ?orb_true_r; reflexivity.
Qed.
Lemma symbols_some lk o t a par : some_option o -> Nat.eqb (length (make_nodes lk o t a par)) (length par) = false.
Proof. unfold some_option, make_nodes. intros H. apply Nat.eqb_neq. destruct (o_mod o), (o_file o), (o_func o), (o_line o), (o_loc o); cbn in *; try discriminate H; lia. Qed.

Section Inv.
  Variables (lk : Lookup) (o : Opts) (GC : N -> N -> path -> Prop) (ok : N -> list N -> Prop).
  Hypothesis Hopt : some_option o.
  Hypothesis Hlk : honest lk.
  Hypothesis Hok : forall t a l, ok t (a :: l) -> ok t l.
  Hypothesis Hstep : forall t a l par, ok t (a :: l) -> match l with [] => par = [] | b :: _ => GC t b par end -> GC t a (symbols lk o t a ++ par).
  Definition Inv (st : St) : Prop :=
    (forall t p n, find_mark st t p = Some n -> exists a l, addrs t p = a :: l /\ GC t a n) /\ (forall i t a n, find_cache st i t a = Some n -> GC t a n) /\ dead st = false.
  Lemma inv_start : Inv start.
  Proof. split; [|split]; [intros t p n H; discriminate H|intros i t a n H; discriminate H|reflexivity]. Qed.
  Lemma perform_inv i t a l par st st' r : Inv st -> ok t (a :: l) -> match l with [] => par = [] | b :: _ => GC t b par end ->
    perform_lookup lk o i t a par st = (st', r) -> Inv st' /\ exists n, r = Some n /\ GC t a n.
  Proof.
    intros (I1 & I2 & I3) O P. unfold perform_lookup. destruct (find_cache st i t a) as [n|] eqn:E.
    - intros H. injection H as <- <-. split; [split; [|split]; assumption|]. exists n. split; [reflexivity|]. exact (I2 _ _ _ _ E).
    - rewrite symbols_some by exact Hopt. intros H. injection H as <- <-. rewrite make_nodes_symbols by exact Hlk. assert (G : GC t a (symbols lk o t a ++ par)) by (apply (Hstep t a l); assumption). split.
      + split; [exact I1|]. split; [|exact I3]. intros i' t' a' n'. unfold find_cache. cbn [caches find_in]. destruct (cell_eq (i', t', a') (i, t, a)) as [X|X]; [injection X as -> -> ->; intros H; injection H as <-; exact G|apply I2].
      + exists (symbols lk o t a ++ par). auto.
  Qed.
  Lemma sym_path_inv i t p : forall st st' r, Inv st -> ok t (addrs t p) -> sym_path lk o i t p st = (st', r) ->
    Inv st' /\ match addrs t p with [] => r = None | a :: _ => exists n, r = Some n /\ GC t a n end.
  Proof.
    induction p as [|(k, v) p IH]; intros st st' r I O; cbn [sym_path].
    - intros H. injection H as <- <-. cbn. auto.
    - unfold addrs in O |- *. cbn [filter fst]. cbn [filter fst] in O. destruct (is_target t k) eqn:T; [|exact (IH st st' r I O)]. cbn [map snd] in O |- *. change (map (fun x => to_uint (snd x)) (filter (fun y => is_target t (fst y)) p)) with (addrs t p) in *.
      destruct (find_mark st t ((k, v) :: p)) as [n|] eqn:F.
      + intros H. injection H as <- <-. split; [exact I|]. exists n. split; [reflexivity|]. destruct (proj1 I _ _ _ F) as (a & l & A & G). unfold addrs in A. cbn [filter fst] in A. rewrite T in A. cbn [map snd] in A. injection A as A _. rewrite A. exact G.
      + destruct (sym_path lk o i t p st) as (st1, par) eqn:E1. destruct (IH _ _ _ I (Hok _ _ _ O) E1) as (I1 & P1).
        destruct (perform_lookup lk o i t (to_uint v) match par with Some q => q | None => [] end st1) as (st2, m) eqn:E2.
        assert (P2 : match addrs t p with [] => match par with Some q => q | None => [] end = [] | b :: _ => GC t b match par with Some q => q | None => [] end end).
        { clear - P1. destruct (addrs t p) as [|b l]; [rewrite P1; reflexivity|]. destruct P1 as (q & P1 & Q). rewrite P1. exact Q. }
        destruct (perform_inv _ _ _ (addrs t p) _ _ _ _ I1 O P2 E2) as ((J1 & J2 & J3) & n & -> & G).
        intros H. injection H as <- <-. split; [|exists n; auto]. split; [|split; [exact J2|exact J3]]. intros t' p' n'. unfold find_mark. cbn [marks find_in].
        match goal with |- context [if ?c then _ else _] => destruct c as [X|X] end; [|apply J1]. injection X as -> ->. intros H. injection H as <-. exists (to_uint v), (addrs t p). split; [|exact G]. unfold addrs. cbn [filter fst]. rewrite T. reflexivity.
  Qed.
  Lemma has_addrs t e : entry_has t e = false <-> entry_addrs t e = [].
  Proof.
    destruct e as [p|t' v]; cbn [entry_has entry_addrs]; [|destruct (t' =? t); split; intros H; try reflexivity; discriminate H].
    unfold addrs. induction p as [|(k, v) p IH]; cbn [has_target filter fst]; [split; reflexivity|]. destruct (is_target t k); cbn [orb]; [split; intros H; discriminate H|exact IH].
  Qed.
  Lemma find_first t rec : match find (entry_has t) rec with Some e => In e rec /\ first_addrs t rec = entry_addrs t e /\ entry_addrs t e <> [] | None => first_addrs t rec = [] end.
  Proof.
    induction rec as [|e rec IH]; cbn [find first_addrs]; [reflexivity|]. destruct (entry_has t e) eqn:E.
    - assert (N : entry_addrs t e <> []) by (intros H; apply has_addrs in H; rewrite H in E; discriminate E). split; [left; reflexivity|]. split; [|exact N]. destruct (entry_addrs t e); [contradiction|reflexivity].
    - apply has_addrs in E. rewrite E. destruct (find (entry_has t) rec); [|exact IH]. destruct IH as (A & B). split; [right; exact A|exact B].
  Qed.
  Lemma get_inv i t rec st st' r : Inv st -> ok t (first_addrs t rec) -> get_symbol_entry lk o i t rec st = (st', r) ->
    Inv st' /\ match first_addrs t rec with [] => r = None | a :: _ => exists n, r = Some n /\ GC t a n end.
  Proof.
    intros I O. unfold get_symbol_entry. pose proof (find_first t rec) as F. pose proof (find_some (entry_has t) rec) as S. destruct (find (entry_has t) rec) as [[p|t' v]|].
    - destruct F as (_ & F & _). rewrite F in O |- *. cbn [entry_addrs] in O |- *. intros H. exact (sym_path_inv i t p st st' r I O H).
    - destruct (S _ eq_refl) as (_ & T). cbn [entry_has] in T. destruct F as (_ & F & _). rewrite F in O |- *. cbn [entry_addrs] in O |- *. rewrite T in O |- *. intros H. apply (perform_inv _ _ _ [] [] _ _ _ I O eq_refl H).
    - intros H. injection H as <- <-. rewrite F. auto.
  Qed.
  Lemma all_inv i rec ts : forall st st' es, Inv st -> (forall t, ok t (first_addrs t rec)) -> all_symbols lk o i ts rec st = (st', es) ->
    Inv st' /\ Forall2 (fun t n => match first_addrs t rec with [] => False | a :: _ => GC t a n end) (filter (fun t => match first_addrs t rec with [] => false | _ => true end) ts) es.
  Proof.
    induction ts as [|t ts IH]; intros st st' es I O; cbn [all_symbols filter].
    - intros H. injection H as <- <-. auto.
    - destruct (get_symbol_entry lk o i t rec st) as (st1, e0) eqn:E1. destruct (all_symbols lk o i ts rec st1) as (st2, es2) eqn:E2.
      destruct (get_inv _ _ _ _ _ _ I (O t) E1) as (I1 & P1). destruct (IH _ _ _ I1 O E2) as (I2 & P2). intros H. injection H as <- <-. split; [exact I2|].
      destruct (first_addrs t rec) as [|a l] eqn:A; [rewrite P1; exact P2|]. destruct P1 as (n & -> & G). constructor; [rewrite A; exact G|exact P2].
  Qed.
  Lemma run_inv evs : forall st, Inv st -> (forall i ts rec t, In (i, ts, rec) evs -> ok t (first_addrs t rec)) -> Inv (run lk (fun _ => o) evs st).
  Proof.
    induction evs as [|((i, ts), rec) evs IH]; intros st I O; cbn [run]; [exact I|]. apply IH.
    - unfold process_snapshot. destruct (all_symbols lk o i ts rec st) as (st1, es) eqn:E. cbn [fst]. refine (proj1 (all_inv _ _ _ _ _ _ I _ E)). intros t. apply (O i ts rec t). left. reflexivity.
    - intros i' ts' rec' t H. apply (O i' ts' rec' t). right. exact H.
  Qed.
End Inv.

Lemma process_eq lk o i ts rec st : process_snapshot lk o i ts rec st = (fst (all_symbols lk o i ts rec st), rec ++ map Ref (snd (all_symbols lk o i ts rec st))).
Proof. unfold process_snapshot. destruct (all_symbols lk o i ts rec st) as (st1, es). reflexivity. Qed.

(* the record's own entries stay, in order, and at most one entry for each target follows *)
Theorem C89_record_kept lk o i ts rec st : exists es, snd (process_snapshot lk o i ts rec st) = rec ++ map Ref es /\ (length es <= length ts)%nat.
Proof.
  rewrite process_eq. exists (snd (all_symbols lk o i ts rec st)). split; [reflexivity|]. revert st. induction ts as [|t ts IH]; intros st; cbn [all_symbols]; [apply le_n|].
  destruct (get_symbol_entry lk o i t rec st) as (st1, e). specialize (IH st1). destruct (all_symbols lk o i ts rec st1) as (st2, es). cbn [snd length] in *. destruct e; cbn [length]; lia.
Qed.

(* the targets a record has addresses of get one entry each; its last symbols are those of the innermost address *)
Theorem C89_innermost lk o evs i ts rec : honest lk -> some_option o ->
  let st := run lk (fun _ => o) evs start in
  exists es, snd (process_snapshot lk o i ts rec st) = rec ++ map Ref es /\ dead (fst (process_snapshot lk o i ts rec st)) = false /\
    Forall2 (fun t n => exists a callers outer, first_addrs t rec = a :: callers /\ n = symbols lk o t a ++ outer)
      (filter (fun t => match first_addrs t rec with [] => false | _ => true end) ts) es.
Proof.
  intros Hl Ho st. set (GC := fun t a n => exists outer, n = symbols lk o t a ++ outer). set (ok := fun (_ : N) (_ : list N) => True).
  assert (Hs : forall t a l par, ok t (a :: l) -> match l with [] => par = [] | b :: _ => GC t b par end -> GC t a (symbols lk o t a ++ par)) by (intros t a l par _ _; exists par; reflexivity).
  assert (Hk : forall t a l, ok t (a :: l) -> ok t l) by (intros; exact I).
  assert (Is : Inv GC st) by (apply (run_inv lk o GC ok Ho Hl Hk Hs); [apply inv_start|intros; exact I]).
  rewrite process_eq. cbn [fst snd]. destruct (all_symbols lk o i ts rec st) as (st1, es) eqn:E. cbn [fst snd].
  destruct (all_inv lk o GC ok Ho Hl Hk Hs i rec ts st st1 es Is (fun _ => I) E) as (I1 & F). exists es. split; [reflexivity|]. split; [exact (proj2 (proj2 I1))|].
  clear -F. induction F as [|t n ts' es' H F IH]; constructor; [|exact IH]. cbv beta in *. destruct (first_addrs t rec) as [|a l]; [contradiction|]. destruct H as (outer & H). exists a, l, outer. auto.
Qed.

(* where each address is recorded below one list of callers only, the symbols are those of the whole call path, address by address *)
Lemma first_addrs_in t rec a l : first_addrs t rec = a :: l -> exists e, In e rec /\ entry_addrs t e = a :: l.
Proof.
  induction rec as [|e rec IH]; cbn [first_addrs]; [discriminate|]. destruct (entry_addrs t e) as [|b m] eqn:E; [intros H; destruct (IH H) as (e' & A & B); exists e'; split; [right; exact A|exact B]|intros H; exists e; split; [left; reflexivity|rewrite E; exact H]].
Qed.
Theorem C89_call_paths lk o up evs i ts rec : honest lk -> some_option o -> (forall j us r, In (j, us, r) evs -> one_caller up r) -> one_caller up rec ->
  snd (process_snapshot lk o i ts rec (run lk (fun _ => o) evs start)) =
  rec ++ flat_map (fun t => match first_addrs t rec with [] => [] | l => [Ref (flat_map (symbols lk o t) l)] end) ts.
Proof.
  intros Hl Ho He Hr. set (ok := fun t l => forall inner a outer, l = inner ++ a :: outer -> outer = up t a). set (GC := fun t a n => n = flat_map (symbols lk o t) (a :: up t a)).
  assert (Hk : forall t a l, ok t (a :: l) -> ok t l) by (intros t a l H inner b outer E; apply (H (a :: inner)); rewrite E; reflexivity).
  assert (Hs : forall t a l par, ok t (a :: l) -> match l with [] => par = [] | b :: _ => GC t b par end -> GC t a (symbols lk o t a ++ par)).
  { intros t a l par H P. unfold GC in *. rewrite <- (H [] a l eq_refl). cbn [flat_map]. f_equal. destruct l as [|b l]; [exact P|]. rewrite P, <- (H [a] b l eq_refl). reflexivity. }
  assert (Hf : forall r, one_caller up r -> forall t, ok t (first_addrs t r)).
  { intros r H t inner a outer E. destruct (first_addrs t r) as [|b l] eqn:F; [destruct inner; discriminate E|]. destruct (first_addrs_in t r b l F) as (e & I & A). apply (H t e inner a outer I). rewrite A. exact E. }
  set (st := run lk (fun _ => o) evs start).
  assert (Is : Inv GC st) by (apply (run_inv lk o GC ok Ho Hl Hk Hs); [apply inv_start|intros j us r t H; apply Hf; exact (He j us r H)]).
  rewrite process_eq. cbn [snd]. f_equal. destruct (all_symbols lk o i ts rec st) as (st1, es) eqn:E. cbn [snd].
  destruct (all_inv lk o GC ok Ho Hl Hk Hs i rec ts st st1 es Is (Hf rec Hr) E) as (_ & F). clear E. revert es F. induction ts as [|t ts IH]; intros es F; cbn [filter flat_map] in *; [inversion F; reflexivity|].
  pose proof (Hf rec Hr t) as K. destruct (first_addrs t rec) as [|a l] eqn:A; [exact (IH es F)|]. inversion F as [|? n ? es' G F' E1 E2]; subst. rewrite A in G. cbn [map app]. rewrite (IH es' F'). f_equal. f_equal. unfold GC in G. rewrite G. rewrite <- (K [] a l eq_refl). reflexivity.
Qed.
(* it is met: main (1) calls f (2) and g (3) *)
Definition any_lookup : Lookup := fun w a => mkRes [100 + a] [102] a [109].
Definition all_options : Opts := mkOpts true true true true true.
Definition call (l : list N) : entry := Ref (map (fun a => (User 9, VNum a)) l).
Example C89_call_paths_met :
  one_caller (fun _ a => if a =? 1 then [] else [1]) [call [2; 1]] /\ one_caller (fun _ a => if a =? 1 then [] else [1]) [call [3; 1]] /\ some_option all_options /\ honest any_lookup /\
  snd (process_snapshot any_lookup all_options 0 [9] [call [3; 1]] (run any_lookup (fun _ => all_options) [(0%nat, [9], [call [2; 1]])] start)) =
  [call [3; 1]; Ref (symbols any_lookup all_options 9 3 ++ symbols any_lookup all_options 9 1)].
Proof.
  assert (H : forall b, b <> 1 -> one_caller (fun _ a => if a =? 1 then [] else [1]) [call [b; 1]]).
  { intros b Hb t e inner a outer [<-|[]] E. unfold entry_addrs, call, addrs in E. cbn [map filter fst is_target] in E. destruct (9 =? t); cbn [map snd to_uint filter fst is_target] in E; [|destruct inner; discriminate E].
    destruct inner as [|x [|y inner]]; cbn [app] in E; [injection E as <- <-; destruct (N.eqb_spec b 1); [contradiction|reflexivity]|injection E as _ <- <-; reflexivity|injection E as _ _ E; destruct inner; discriminate E]. }
  split; [apply H; discriminate|]. split; [apply H; discriminate|]. split; [reflexivity|]. split; [intros w a; cbn; auto|reflexivity].
Qed.

(* the claim without that condition fails: h (4), called by f and then by g, is reported below f both times *)
Theorem C89_call_path_refuted :
  let one := mkOpts true false false false false in
  snd (process_snapshot any_lookup one 0 [9] [call [4; 3; 1]] (run any_lookup (fun _ => one) [(0%nat, [9], [call [4; 2; 1]])] start)) =
  [call [4; 3; 1]; Ref [(SymOf KFunc 9, VText [104]); (SymOf KFunc 9, VText [102]); (SymOf KFunc 9, VText [101])]].
Proof. vm_compute. reflexivity. Qed.
(* a second instance with other options gets the symbols of the first: no source line, though it asks for nothing else *)
Theorem C89_own_options_refuted :
  let os := fun i => match i with 0%nat => mkOpts true false false false false | _ => mkOpts false false false true false end in
  snd (process_snapshot any_lookup (os 1%nat) 1 [9] [call [1]] start) = [call [1]; Ref [(SymOf KLine 9, VNum 1)]] /\
  snd (process_snapshot any_lookup (os 1%nat) 1 [9] [call [1]] (run any_lookup os [(0%nat, [9], [call [1]])] start)) = [call [1]; Ref [(SymOf KFunc 9, VText [101])]].
Proof. vm_compute. auto. Qed.
(* with every lookup switched off, the first address ends the process *)
Theorem C89_no_options_refuted lk t a : dead (fst (process_snapshot lk (mkOpts false false false false false) 0 [t] [Ref [(User t, VNum a)]] start)) = true.
Proof. unfold process_snapshot, all_symbols, get_symbol_entry. cbn [find entry_has has_target is_target]. rewrite N.eqb_refl. cbn [orb]. cbn [sym_path is_target]. rewrite N.eqb_refl. reflexivity. Qed.

(* once a record has got its symbols, an equal record gets the same, whatever is looked up in between, by whichever instance *)
Definition extends (s s' : St) : Prop :=
  (forall t p n, find_mark s t p = Some n -> find_mark s' t p = Some n) /\ (forall i t a n, find_cache s i t a = Some n -> find_cache s' i t a = Some n).
Lemma ext_refl s : extends s s. Proof. split; auto. Qed.
Lemma ext_trans a b c : extends a b -> extends b c -> extends a c. Proof. intros (A & B) (C & D). split; intros; eauto. Qed.
Lemma perform_ext lk o i t a par st st' r : perform_lookup lk o i t a par st = (st', r) ->
  extends st st' /\ marks st' = marks st /\ (some_option o -> exists n, r = Some n /\ find_cache st' i t a = Some n).
Proof.
  unfold perform_lookup. destruct (find_cache st i t a) as [n|] eqn:E; [intros H; injection H as <- <-; split; [apply ext_refl|]; split; [reflexivity|]; intros _; exists n; auto|].
  destruct (Nat.eqb (length (make_nodes lk o t a par)) (length par)) eqn:L; intros H; injection H as <- <-.
  - split; [split; auto|]. split; [reflexivity|]. intros Ho. rewrite symbols_some in L by exact Ho. discriminate L.
  - split; [|split; [reflexivity|]].
    + split; [auto|]. intros i' t' a' n'. unfold find_cache. cbn [caches find_in]. destruct (cell_eq (i', t', a') (i, t, a)) as [X|X]; [|auto]. injection X as -> -> ->. unfold find_cache in E. rewrite E. discriminate.
    + intros _. eexists. split; [reflexivity|]. unfold find_cache. cbn [caches find_in]. destruct (cell_eq (i, t, a) (i, t, a)); [reflexivity|contradiction].
Qed.
Lemma sym_path_ext lk o i t p : forall st st' r, sym_path lk o i t p st = (st', r) ->
  extends st st' /\ (forall t' p', (length p < length p')%nat -> find_mark st' t' p' = find_mark st t' p').
Proof.
  induction p as [|(k, v) p IH]; intros st st' r; cbn [sym_path]; [intros H; injection H as <- <-; split; [apply ext_refl|auto]|].
  destruct (is_target t k).
  2:{ intros H. destruct (IH _ _ _ H) as (A & B). split; [exact A|]. intros t' p' L. apply B. cbn [length] in L. lia. }
  destruct (find_mark st t ((k, v) :: p)) as [n|] eqn:F; [intros H; injection H as <- <-; split; [apply ext_refl|auto]|].
  destruct (sym_path lk o i t p st) as (st1, par) eqn:E1. destruct (IH _ _ _ E1) as (A & B).
  destruct (perform_lookup lk o i t (to_uint v) match par with Some q => q | None => [] end st1) as (st2, m) eqn:E2. destruct (perform_ext _ _ _ _ _ _ _ _ _ E2) as (C & D & _).
  assert (M : forall t' p', find_mark st2 t' p' = find_mark st1 t' p') by (intros; unfold find_mark; rewrite D; reflexivity).
  destruct m as [n|]; intros H; injection H as <- <-.
  - split.
    + apply (ext_trans _ _ _ A). apply (ext_trans _ _ _ C). split; [|auto]. intros t' p' n'. unfold find_mark at 2. cbn [marks find_in]. match goal with |- context [if ?c then _ else _] => destruct c as [X|X] end; [|auto].
      injection X as -> ->. rewrite M, B, F by (cbn [length]; lia). discriminate.
    + intros t' p' L. unfold find_mark at 1. cbn [marks find_in]. match goal with |- context [if ?c then _ else _] => destruct c as [X|X] end; [injection X as _ ->; lia|]. change (find_mark st2 t' p' = find_mark st t' p'). rewrite M. apply B. cbn [length] in L. lia.
  - split; [exact (ext_trans _ _ _ A C)|]. intros t' p' L. rewrite M. apply B. cbn [length] in L. lia.
Qed.
Lemma sym_path_again lk o i t p : some_option o -> forall st st1 r st', sym_path lk o i t p st = (st1, r) -> extends st1 st' -> sym_path lk o i t p st' = (st', r).
Proof.
  intros Ho. induction p as [|(k, v) p IH]; intros st st1 r st'; cbn [sym_path]; [intros H _; injection H as <- <-; reflexivity|].
  destruct (is_target t k); [|intros H X; exact (IH _ _ _ _ H X)].
  destruct (find_mark st t ((k, v) :: p)) as [n|] eqn:F; [intros H X; injection H as <- <-; rewrite (proj1 X _ _ _ F); reflexivity|].
  destruct (sym_path lk o i t p st) as (s1, par) eqn:E1. destruct (perform_lookup lk o i t (to_uint v) match par with Some q => q | None => [] end s1) as (s2, m) eqn:E2.
  destruct (perform_ext _ _ _ _ _ _ _ _ _ E2) as (_ & _ & P). destruct (P Ho) as (n & -> & _). intros H X. injection H as <- <-.
  rewrite (proj1 X t ((k, v) :: p) n); [reflexivity|]. unfold find_mark. cbn [marks find_in]. match goal with |- context [if ?c then _ else _] => destruct c as [Y|Y] end; [reflexivity|contradiction Y; reflexivity].
Qed.
Lemma get_ext lk o i t rec st st' r : get_symbol_entry lk o i t rec st = (st', r) -> extends st st'.
Proof.
  unfold get_symbol_entry. destruct (find (entry_has t) rec) as [[p|t' v]|]; intros H; [exact (proj1 (sym_path_ext _ _ _ _ _ _ _ _ H))|exact (proj1 (perform_ext _ _ _ _ _ _ _ _ _ H))|injection H as <- <-; apply ext_refl].
Qed.
Lemma get_again lk o i t rec st st1 r st' : some_option o -> get_symbol_entry lk o i t rec st = (st1, r) -> extends st1 st' -> get_symbol_entry lk o i t rec st' = (st', r).
Proof.
  intros Ho. unfold get_symbol_entry. destruct (find (entry_has t) rec) as [[p|t' v]|]; intros H X; [exact (sym_path_again _ _ _ _ _ Ho _ _ _ _ H X)| |injection H as <- <-; reflexivity].
  destruct (perform_ext _ _ _ _ _ _ _ _ _ H) as (_ & _ & P). destruct (P Ho) as (n & -> & C). unfold perform_lookup. rewrite (proj2 X _ _ _ _ C). reflexivity.
Qed.
Lemma all_ext lk o i rec ts : forall st, extends st (fst (all_symbols lk o i ts rec st)).
Proof.
  induction ts as [|t ts IH]; intros st; cbn [all_symbols]; [apply ext_refl|]. destruct (get_symbol_entry lk o i t rec st) as (st1, e) eqn:E. specialize (IH st1). destruct (all_symbols lk o i ts rec st1) as (st2, es). cbn [fst] in *. exact (ext_trans _ _ _ (get_ext _ _ _ _ _ _ _ _ E) IH).
Qed.
Lemma all_again lk o i rec ts : some_option o -> forall st st', extends (fst (all_symbols lk o i ts rec st)) st' -> all_symbols lk o i ts rec st' = (st', snd (all_symbols lk o i ts rec st)).
Proof.
  intros Ho. induction ts as [|t ts IH]; intros st st'; cbn [all_symbols]; [reflexivity|]. destruct (get_symbol_entry lk o i t rec st) as (st1, e) eqn:E. pose proof (all_ext lk o i rec ts st1) as X. specialize (IH st1 st'). destruct (all_symbols lk o i ts rec st1) as (st2, es). cbn [fst snd] in *. intros Y.
  rewrite (get_again _ _ _ _ _ _ _ _ st' Ho E (ext_trans _ _ _ X Y)), (IH Y). reflexivity.
Qed.
Theorem C89_same_again lk os evs i ts rec st : some_option (os i) ->
  snd (process_snapshot lk (os i) i ts rec (run lk os evs (fst (process_snapshot lk (os i) i ts rec st)))) = snd (process_snapshot lk (os i) i ts rec st).
Proof.
  intros Ho. assert (R : forall evs s, extends s (run lk os evs s)).
  { clear. induction evs as [|((j, us), r) evs IH]; intros s; cbn [run]; [apply ext_refl|]. eapply ext_trans; [|apply IH]. rewrite process_eq. cbn [fst]. apply all_ext. }
  rewrite !(process_eq lk (os i) i ts rec). cbn [fst snd]. rewrite (all_again lk (os i) i rec ts Ho st _ (R evs _)). reflexivity.
Qed.
