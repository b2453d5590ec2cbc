(* C57: concrete texts, printed queries *)
From Coq Require Import Strings.Ascii Strings.String.
From Verif Require Import Base TextModel ParseModel ParseSpec ParseProofs ParseProps RConfigModel FilterModel QueryModel QuerySpec QueryProofs QueryProofs2 QueryProofs3 QueryProps QueryProps2 QueryPrint.
Open Scope N_scope.

(* ---------- texts made of tokens ---------- *)
(* a token with spaces before it: a word is written in quotes or as it is, a keyword as given *)
Record chunk := mkch { ch_sp : nat; ch_tok : token; ch_word : bytes; ch_quoted : bool }.
Definition ch_text (c : chunk) : bytes := match ch_tok c with TChar x => [x] | _ => if ch_quoted c then quote (ch_word c) else ch_word c end.
Definition chunks_text (l : list chunk) : bytes := flat_map (fun c => repeat 32 (ch_sp c) ++ ch_text c) l.
Definition plainb (seps : bytes) (c : N) : bool := negb ((c =? 34) || (c =? 92) || isspace c || is_one_of c seps).
Definition stopsb (seps : bytes) (t : bytes) : bool := match t with [] => true | c :: _ => (isspace c || is_one_of c seps) && negb ((c =? 34) || (c =? 92)) end.
Definition wordb (k : token) (w : bytes) : bool := match k with TWord v | TName v | TArg v | TUnit v => beq w v | TKey v => beq (map tolower w) v | TChar _ => false end.
Definition chunk_ok (c : chunk) (rest : bytes) : bool :=
  match ch_tok c with
  | TChar _ => true
  | k => wordb k (ch_word c) && (ch_quoted c || (nonempty (ch_word c) && forallb (plainb (delims k)) (ch_word c) && negb (match k with TName _ => hd 0 (ch_word c) =? 42 | _ => false end))) && stopsb (delims k) rest
  end.
Fixpoint chunks_ok (l : list chunk) : bool := match l with [] => true | c :: r => chunk_ok c (chunks_text r) && chunks_ok r end.
Lemma bare_spells seps w : forallb (plainb seps) w = true -> spells seps w w.
Proof.
  induction w as [|c w IH]; intro H; [constructor|]. cbn [forallb] in H. apply andb_true_iff in H. destruct H as [H1 H2]. constructor; [|apply IH; exact H2]. unfold plainb in H1. apply Bool.negb_true_iff in H1. apply Bool.orb_false_iff in H1. destruct H1 as [H1 H4]. apply Bool.orb_false_iff in H1. destruct H1 as [H1 H3]. apply Bool.orb_false_iff in H1. destruct H1 as [H0 H1].
  split; [apply N.eqb_neq; exact H0|]. split; [apply N.eqb_neq; exact H1|]. intro D. apply delim_spec in D. rewrite H3, H4 in D. discriminate D.
Qed.
Lemma stopsb_ok seps t : stopsb seps t = true -> stops seps t.
Proof.
  destruct t as [|c t]; [intros _; exact Logic.I|]. cbn. intro H. apply andb_true_iff in H. destruct H as [H1 H2]. apply Bool.negb_true_iff in H2. apply Bool.orb_false_iff in H2. destruct H2 as [H2 H3]. split; [apply delim_spec; exact H1|]. split; apply N.eqb_neq; assumption.
Qed.
Lemma spaces_repeat n : spaces (repeat 32 n). Proof. induction n; constructor; [reflexivity|assumption]. Qed.
Lemma chunks_spelled l : chunks_ok l = true -> spelled (map ch_tok l) (chunks_text l).
Proof.
  induction l as [|c l IH]; intro H; [constructor; constructor|]. cbn [chunks_ok] in H. apply andb_true_iff in H. destruct H as [H1 H2]. specialize (IH H2). cbn [map chunks_text flat_map]. fold (chunks_text l). rewrite <- app_assoc.
  destruct c as [n k w qd]. unfold chunk_ok, ch_text in *. cbn [ch_sp ch_tok ch_word ch_quoted] in *.
  assert (G : (forall x, k <> TChar x) -> wordb k w && (qd || (nonempty w && forallb (plainb (delims k)) w && negb (match k with TName _ => hd 0 w =? 42 | _ => false end))) && stopsb (delims k) (chunks_text l) = true -> spelled (k :: map ch_tok l) (repeat 32 n ++ (if qd then quote w else w) ++ chunks_text l)).
  { intros Nk Hk. apply andb_true_iff in Hk. destruct Hk as [Hk Hs]. apply andb_true_iff in Hk. destruct Hk as [Hw Hq]. apply (sp_token k w); [apply spaces_repeat| | | | |apply stopsb_ok; exact Hs|exact IH].
    - destruct k; cbn [wordb token_word] in *; try (apply beq_spec; exact Hw). discriminate Hw.
    - destruct qd; [discriminate|]. cbn [orb] in Hq. destruct w; [discriminate Hq|discriminate].
    - destruct qd; [apply quote_spells|]. cbn [orb] in Hq. apply andb_true_iff in Hq. destruct Hq as [Hq _]. apply andb_true_iff in Hq. apply bare_spells. apply Hq.
    - intros v ->. destruct qd; [discriminate|]. cbn [orb] in Hq. apply andb_true_iff in Hq. destruct Hq as [_ Hq]. apply Bool.negb_true_iff in Hq. apply N.eqb_neq. exact Hq. }
  destruct k; try (apply G; [discriminate|exact H1]). cbn [app]. apply sp_punct; [apply spaces_repeat|exact IH].
Qed.

(* ---------- a query ---------- *)
Definition wd (n : nat) (t : token) (s : string) : chunk := mkch n t (bs s) false.
Definition kw (n : nat) (s : string) : chunk := mkch n (TKey (lower (bs s))) (bs s) false.
Definition pc (n : nat) (c : N) : chunk := mkch n (TChar c) [] false.
Definition qd (n : nat) (t : token) (s : string) : chunk := mkch n t (bs s) true.
Definition w_ (s : string) : token := TWord (bs s).
Definition ex_chunks : list chunk :=
  [kw 0 "Let"; wd 1 (w_ "r") "r"; pc 0 61; kw 0 "ratio"; pc 0 40; wd 0 (TArg (bs "x")) "x"; pc 0 44; wd 0 (TArg (bs "y")) "y"; pc 0 41; kw 1 "if"; wd 1 (w_ "z") "z"; pc 0 62; wd 0 (w_ "0") "0";
   kw 1 "SELECT"; wd 1 (TName (bs "path")) "path"; pc 0 44; wd 0 (TName (bs "a")) "a"; kw 1 "AS"; qd 1 (w_ "My name") "My name"; pc 0 44; kw 1 "Sum"; pc 0 40; wd 0 (TArg (bs "t")) "t"; pc 0 41; kw 1 "as"; wd 1 (w_ "T") "T"; kw 1 "unit"; wd 1 (TUnit (bs "m<s")) "m<s";
   kw 1 "group"; kw 1 "BY"; wd 1 (w_ "path") "path"; pc 0 44; wd 0 (w_ "a") "a";
   kw 1 "where"; kw 1 "not"; wd 1 (w_ "a") "a"; pc 0 61; wd 0 (w_ "5") "5"; pc 0 44; wd 0 (w_ "b") "b";
   kw 1 "order"; kw 1 "by"; wd 1 (w_ "a") "a"; pc 0 44; wd 0 (w_ "sum#t") "sum#t"; kw 1 "DESC";
   kw 1 "format"; kw 1 "tree"; pc 0 40; wd 0 (TArg (bs "column-width=20")) "column-width=20"; pc 0 44; wd 0 (TArg (bs "print-globals")) "print-globals"; pc 0 41].
Definition ex_text : string := "Let r=ratio(x,y) if z>0 SELECT path,a AS ""My name"", Sum(t) as T unit m<s group BY path,a where not a=5,b order by a,sum#t DESC format tree(column-width=20,print-globals)".
Example ex_text_chunks : chunks_text ex_chunks = bs ex_text. Proof. vm_compute. reflexivity. Qed.
Definition ex_clauses : list clause :=
  [CLet [mkli (bs "r") (bs "ratio", Some [bs "x"; bs "y"]) (Some (mkcnd false (bs "z") (Greater (bs "0"))))];
   CSelect [mksi (SColumn (bs "path")) None None; mksi (SColumn (bs "a")) (Some (bs "My name")) None; mksi (SCall (bs "sum") [bs "t"]) (Some (bs "T")) (Some (bs "m<s"))];
   CGroup [bs "path"; bs "a"]; CWhere [mkcnd true (bs "a") (Equals (bs "5")); mkcnd false (bs "b") Exists]; COrder [(bs "a", DNone); (bs "sum#t", DDesc)];
   CFormat (bs "tree", Some [bs "column-width=20"; bs "print-globals"])].
Example ex_spelled : spelled (query_tokens ex_clauses) (bs ex_text).
Proof. rewrite <- ex_text_chunks. change (query_tokens ex_clauses) with (map ch_tok ex_chunks). apply chunks_spelled. vm_compute. reflexivity. Qed.
Lemma nin_nil (l : list bytes) : forallb nonempty l = true -> ~ In [] l.
Proof. intros H D. rewrite forallb_forall in H. specialize (H _ D). discriminate H. Qed.
Example ex_ok : query_ok ex_clauses.
Proof.
  split; [|constructor; [intros []|constructor]]. repeat apply Forall_cons; [..|constructor].
  - split; [discriminate|]. constructor; [|constructor]. split; [|repeat split; discriminate]. exists 0, "ratio"%string, 2%nat, 3%nat. split; [cbn; tauto|]. split; [reflexivity|]. split; [cbn; lia|apply nin_nil; reflexivity].
  - split; [discriminate|]. repeat apply Forall_cons; [..|constructor].
    + split; [exists (bs "path"); constructor; discriminate|split; discriminate].
    + split; [exists (bs "a"); constructor; discriminate|split; discriminate].
    + split; [|split; discriminate]. exists (bs "sum#t"). apply (co_call _ _ _ _ 1). exists "sum"%string, 1%nat, 1%nat, "sum#"%string, 1%nat. split; [cbn; tauto|]. split; [reflexivity|]. split; [split; [cbn; lia|apply nin_nil; reflexivity]|reflexivity].
  - split; [discriminate|apply nin_nil; reflexivity].
  - split; [discriminate|]. repeat apply Forall_cons; [..|constructor]; (split; [discriminate|split; [discriminate|try discriminate; exact Logic.I]]).
  - split; [discriminate|apply nin_nil; reflexivity].
  - exists 5, [(bs "column-width", bs "20"); (bs "print-globals", bs "true")], "tree"%string, 0%nat, ["path-attributes"; "column-width"; "print-globals"]%string. split; [cbn; tauto|]. split; [reflexivity|]. split; [split; [cbn; lia|apply nin_nil; reflexivity]|]. split; [reflexivity|].
    intros [|[|n]] a x Ha Hx; [injection Ha as <-; injection Hx as <-|injection Ha as <-; injection Hx as <-|destruct n; discriminate Ha].
    + exists (FKey (bs "column-width") (bs "20")). split.
      * apply (ft_key (bs "column-width") (bs "20") [] (bs "column-width") [] [] (bs "20") []); [exact (Forall_nil _)|exact (Forall_nil _)|exact (Forall_nil _)|discriminate|apply bare_spells; reflexivity|discriminate|discriminate|apply bare_spells; reflexivity|exact Logic.I].
      * split; [right; left; reflexivity|reflexivity].
    + exists (FValue (bs "print-globals")). split.
      * apply (ft_value (bs "print-globals") [] (bs "print-globals") []); [exact (Forall_nil _)|exact (Forall_nil _)|discriminate|apply bare_spells; reflexivity].
      * left. split; [right; right; left; reflexivity|reflexivity].
Qed.
Example ex_parsed : exists q, calql (bs ex_text) = (q, false) /\ describes ex_clauses q.
Proof. exact (C57_query _ _ ex_ok ex_spelled). Qed.
Example ex_rejected : snd (calql (bs ex_text ++ bs " frobnicate")) = true /\ snd (calql (bs "aggregate sum(a,b)")) = true /\ snd (calql (bs "select a group a")) = true /\ snd (calql (bs "let x=first(a), x=first(b)")) = true /\ snd (calql (bs "select a;")) = true.
Proof. vm_compute. repeat split. Qed.

(* ---------- surprises ---------- *)
(* SELECT * selects every column only if no column is named after it *)
Theorem C57_star_column_refuted : exists q, calql (bs "select *, a as b") = (q, false) /\ q_ssel q = SelList /\ q_sel q = [bs "a"].
Proof. eexists. vm_compute. repeat split. Qed.
(* An attribute called "not" cannot be tested for, quoted or not *)
Theorem C57_quoted_not_refuted : snd (calql (bs "where ""not""")) = true.
Proof. vm_compute. reflexivity. Qed.
(* empty arguments are dropped *)
Theorem C57_empty_argument_refuted : calql (bs "aggregate ratio(a,,b)") = calql (bs "aggregate ratio(a,b)") /\ snd (calql (bs "aggregate ratio(a,,b)")) = false.
Proof. vm_compute. split; reflexivity. Qed.
(* a printed query need not be the query: the arguments of an aggregation are printed without separators *)
Theorem C57_print_refuted : exists text q, calql text = (q, false) /\ print_query q = bs " aggregate ratio(ab)" /\ snd (calql (print_query q)) = true.
Proof. exists (bs "aggregate ratio(a,b)"). eexists. split; [vm_compute; reflexivity|]. split; vm_compute; reflexivity. Qed.
