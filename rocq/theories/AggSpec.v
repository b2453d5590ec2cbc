(* What aggregation means, in terms of records, the values they carry and the names of attributes *)
From Verif Require Import Base VariantModel VariantSpec NamesModel TextModel TreeModel CaliFileModel CaliFileProofs2 ArithSpec AggModel.
Open Scope N_scope.

(* The (attribute, value) list from the root of the context tree to a node *)
Inductive npath (d : mdb) : N -> list (N * value) -> Prop :=
| np_root : npath d INV_ID []
| np_node i n l : i <> INV_ID -> dnode d i = Some n -> npath d (par_id n) l -> npath d i (l ++ [(n_attr n, n_val n)]).
(* The (attribute, value) list of all reference entries of a record; entries later in the record first *)
Inductive refpath (d : mdb) : list entry -> list (N * value) -> Prop :=
| rp_nil : refpath d [] []
| rp_imm a v rec l : refpath d rec l -> refpath d (EImm a v :: rec) l
| rp_ref i p rec l : npath d i p -> refpath d rec l -> refpath d (ERef i :: rec) (l ++ p).
(* l' are the elements of l with property P, in order *)
Inductive keep {A} (P : A -> Prop) : list A -> list A -> Prop :=
| keep_nil : keep P [] []
| keep_yes x l l' : P x -> keep P l l' -> keep P (x :: l) (x :: l')
| keep_no x l l' : ~ P x -> keep P l l' -> keep P (x :: l) l'.
(* a is one of the attributes named in GROUP BY, or carries one of them as metadata *)
Definition key_attr (d : mdb) (q : qspec) (a : N) : Prop :=
  exists s k, In s (q_keys q) /\ get_attr d s = Some k /\ (a = k \/ exists l v, npath d a l /\ In (k, v) l).
Definition grouped (d : mdb) (q : qspec) (a : N) : Prop :=
  q_all q = true \/ (q_nested q = true /\ is_nested d a = true) \/ key_attr d q a.

(* the group a record belongs to: its immediate key values (sorted by attribute), its grouped values
   that are not nested, its grouped nested values (the region path) *)
Record gkey := mkgk { gk_imm : list (N * value); gk_np : list (N * value); gk_path : list (N * value) }.
Definition group_key (d : mdb) (q : qspec) (rec : list entry) (K : gkey) : Prop :=
  exists l m, refpath d rec l /\
    keep (fun x => grouped d q (fst x) /\ is_nested d (fst x) = false) l (gk_np K) /\
    keep (fun x => grouped d q (fst x) /\ is_nested d (fst x) = true) l (gk_path K) /\
    keep (fun x => key_attr d q (fst x)) (imms_of rec) m /\ gk_imm K = sort_imms m.
(* A is the group of an enclosing region of K *)
Definition encloses (A K : gkey) : Prop :=
  gk_imm A = gk_imm K /\ gk_np A = gk_np K /\ gk_path A <> [] /\ exists x l, gk_path K = gk_path A ++ x :: l.

(* databases that only grow *)
Record names_ok (d : mdb) : Prop := mknames {
  nm_some : forall s a, get_attr d s = Some a -> exists n, dnode d a = Some n /\ n_attr n = 8 /\ v_text (n_val n) = s;
  nm_reg : forall i n, dnode d i = Some n -> 12 <= i -> n_attr n = 8 -> get_attr d (v_text (n_val n)) <> None }.
Definition wf (d : mdb) : Prop := db_ok d /\ names_ok d.
Record grow (d d' : mdb) : Prop := mkgrow {
  gr_ext : dext d d';
  gr_keep : forall s a, get_attr d s = Some a -> get_attr d' s = Some a;
  gr_new : forall s a, get_attr d s = None -> get_attr d' s = Some a -> N.of_nat (length (d_nodes d)) <= a }.

(* a record of this database *)
Definition entry_ok (d : mdb) (e : entry) : Prop :=
  match e with
  | EImm a _ => is_attr d a = true
  | ERef i => i < N.of_nat (length (d_nodes d)) /\ forall l, npath d i l -> Forall (fun x => fst x <> 8) l
  end.
(* the record carries no results of an earlier aggregation of attribute x while x itself is unknown *)
Definition targets_ok (d : mdb) (q : qspec) (rec : list entry) : Prop :=
  forall c x k a e, In c (q_ker q) -> no_target c = false -> In x (kattrs c) -> get_attr d (fst x) = None -> In k (snd x) -> get_attr d (ka_name k) = Some a ->
    In e rec -> e_id c d e <> a.
Definition rec_ok (d : mdb) (q : qspec) (rec : list entry) : Prop := Forall (entry_ok d) rec /\ targets_ok d q rec.

(* an aggregation: records are added one by one; the database may grow in between (a reader merges
   streams into it, other users create attributes and nodes) *)
Inductive arun (q : qspec) : list (list entry) -> mdb -> agg -> Prop :=
| ar_new d : wf d -> arun q [] d (agg_init (q_ker q))
| ar_db recs d g d' : arun q recs d g -> grow d d' -> wf d' -> arun q recs d' g
| ar_add recs d g rec d' g' : arun q recs d g -> rec_ok d q rec -> process q (d, g) rec = (d', g') -> arun q (recs ++ [rec]) d' g'.

(* the entries of a record that kernel c aggregates, with their role: by attribute name *)
Definition kid (d : mdb) (k : kattr) : list (N * nat) := match get_attr d (ka_name k) with Some a => [(a, ka_role k)] | None => [] end.
Definition smatch1 (c : kcfg) (d : mdb) (rec : list entry) (x : bytes * list kattr) : list (nat * value) :=
  if no_target c then match_rec c d (flat_map (kid d) (snd x)) rec
  else match get_attr d (fst x) with None => [] | Some t => match_rec c d ((t, 0%nat) :: flat_map (kid d) (snd x)) rec end.
Fixpoint smatch_l (c : kcfg) (d : mdb) (rec : list entry) (l : list (bytes * list kattr)) (base : nat) : list (nat * value) :=
  match l with
  | [] => []
  | x :: r => map (fun p => ((base + fst p)%nat, snd p)) (smatch1 c d rec x) ++ smatch_l c d rec r (base + 10)%nat
  end.
Definition smatch (c : kcfg) (d : mdb) (rec : list entry) : list (nat * value) := smatch_l c d rec (kattrs c) 0.

(* the records that contribute to group K for kernel c, in order: the records of the group itself
   (true); for inclusive kernels also the records of groups enclosed by it (false) *)
Inductive collect (d : mdb) (q : qspec) (c : kcfg) (K : gkey) : list (list entry) -> list (bool * list (nat * value)) -> Prop :=
| co_nil : collect d q c K [] []
| co_own r rs l : group_key d q r K -> collect d q c K rs l -> collect d q c K (r :: rs) ((true, smatch c d r) :: l)
| co_incl r rs l K' : group_key d q r K' -> encloses K K' -> is_incl c = true -> smatch c d r <> [] -> collect d q c K rs l -> collect d q c K (r :: rs) ((false, smatch c d r) :: l)
| co_skip r rs l K' : group_key d q r K' -> K <> K' -> ~ (encloses K K' /\ is_incl c = true /\ smatch c d r <> []) -> collect d q c K rs l -> collect d q c K (r :: rs) l.
(* there is an output record for K: some record has group K, or an inclusive kernel propagated a value to it *)
Definition group_present (d : mdb) (q : qspec) (recs : list (list entry)) (K : gkey) : Prop :=
  exists r K', In r recs /\ group_key d q r K' /\ (K = K' \/ (encloses K K' /\ exists c, In c (q_ker q) /\ is_incl c = true /\ smatch c d r <> [])).

(* the results of a kernel as (attribute name, value) list *)
Definition opt_res (v : value) (n : bytes) : list (bytes * value) := if nonempty v then [(n, v)] else [].
Definition kresult (c : kcfg) (tot : value) (k : kst) : option (list (bytes * value)) :=
  match c with
  | CCount => Some (if 0 <? k_n k then [(n_count, VUint (k_n k))] else [])
  | CScount arg sc => Some (if 0 <? k_n k then [(p_scount ++ arg, VUint (k_n k)); (n_scount, VDouble (FloatModel.dmul sc (FloatModel.d_of_Z (Z.of_N (k_n k)))))] else [])
  | CSum x i => Some (opt_res (k_a k) (sel i p_incl p_sum ++ x))
  | CMin x i => Some (opt_res (k_a k) (sel i p_imin p_min ++ x))
  | CMax x i => Some (opt_res (k_a k) (sel i p_imax p_max ++ x))
  | CAny x => Some (opt_res (k_a k) (p_any ++ x))
  | CScale x sc i => Some (if nonempty (k_a k) then [(sel i p_iscsum p_scsum ++ x, k_a k); (sel i p_iscale p_scale ++ x, VDouble (FloatModel.dmul sc (v_f64 (k_a k))))] else [])
  | CAvg x =>
      if 0 <? k_n k then
        let c32 := k_n k mod 4294967296 in
        if (c32 =? 0) && negb (is_double (k_a k)) && nonempty (k_a k) then None
        else Some [(p_avg ++ x, vdiv (k_a k) c32); (p_avgsum ++ x, k_a k); (p_avgcnt ++ x, VUint (k_n k))]
      else Some []
  | CRatio x y sc i =>
      Some (opt_res (k_a k) (sel i p_isrsum p_srsum ++ x) ++ opt_res (k_b k) (sel i p_isrsum p_srsum ++ y) ++
            if nonempty (k_b k) && nonempty (k_a k) then [(sel i p_iratio p_ratio ++ x ++ [47] ++ y, VDouble (FloatModel.ddiv (FloatModel.dmul sc (v_f64 (k_a k))) (v_f64 (k_b k))))] else [])
  | CPct x i =>
      Some (if nonempty (k_b k) && FloatModel.dltb 0 (v_f64 tot) then
              [(sel i p_ipctsum p_pctsum ++ x, k_a k); (sel i p_ipct p_pct ++ x, VDouble (FloatModel.ddiv (FloatModel.dmul 4636737291354636288 (v_f64 (k_b k))) (v_f64 tot)))] else [])
  | CVar x =>
      Some (if 0 <? k_n k then
              let n := FloatModel.d_of_Z (Z.of_N (k_n k)) in
              let avg := FloatModel.ddiv (v_f64 (k_a k)) n in
              [(p_var ++ x, VDouble (FloatModel.dsub (FloatModel.ddiv (v_f64 (k_b k)) n) (FloatModel.dmul avg avg))); (p_varsum ++ x, k_a k); (p_varsq ++ x, k_b k); (p_varcnt ++ x, VUint (k_n k))]
            else [])
  end.
(* the entries es carry the named values rs *)
Definition named (d : mdb) (rs : list (bytes * value)) (es : list entry) : Prop :=
  Forall2 (fun r e => exists a, get_attr d (fst r) = Some a /\ e = EImm a (snd r)) rs es.
(* percent_total: the total over all records *)
Definition total (d : mdb) (c : kcfg) (recs : list (list entry)) : value := fold_left (fun t r => ktot c (smatch c d r) t) recs VInv.
(* the state of kernel c after the contributions l *)
Definition kfinal (c : kcfg) (l : list (bool * list (nat * value))) : kst := fold_left (fun k x => kupd c (fst x) (snd x) k) l (k_init c).

(* the output: one record per group, consisting of entries that spell the group and the results of the
   kernels *)
Record group := mkgroup { gp_key : gkey; gp_ents : list entry; gp_res : list (list entry) }.
(* the entries es contain exactly the values of the group *)
Definition spells (d : mdb) (es : list entry) (K : gkey) : Prop := imms_of es = gk_imm K /\ refpath d es (gk_path K ++ gk_np K).
Definition group_ok (d : mdb) (q : qspec) (recs : list (list entry)) (x : group) : Prop :=
  group_key d q (gp_ents x) (gp_key x) /\ spells d (gp_ents x) (gp_key x) /\
  Forall2 (fun c es => exists l rs, collect d q c (gp_key x) recs l /\ kresult c (total d c recs) (kfinal c l) = Some rs /\ named d rs es) (q_ker q) (gp_res x).
Definition is_output (d : mdb) (q : qspec) (recs out : list (list entry)) (G : list group) : Prop :=
  out = map (fun x => gp_ents x ++ concat (gp_res x)) G /\ NoDup (map gp_key G) /\ (forall K, In K (map gp_key G) <-> group_present d q recs K) /\ Forall (group_ok d q recs) G.
(* fewer than 2^64 nodes *)
Definition size_ok (d : mdb) : Prop := N.of_nat (length (d_nodes d)) <= INV_ID.

(* the values of the immediate entries of r with one of the given attribute names *)
Definition is_named (d : mdb) (names : list bytes) (a : N) : bool := existsb (fun s => match get_attr d s with Some b => b =? a | None => false end) names.
Definition vals (d : mdb) (names : list bytes) (r : list entry) : list value := flat_map (fun x => if is_named d names (fst x) then [snd x] else []) (imms_of r).
(* the same including the values of reference entries (their node only, not the parents) *)
Definition avals (d : mdb) (names : list bytes) (r : list entry) : list value := flat_map (fun e => if is_named d names (e_attr d e) then [e_val d e] else []) r.
(* records of group K; records of group K or of a group enclosed by K *)
Definition members (d : mdb) (q : qspec) (K : gkey) : list (list entry) -> list (list entry) -> Prop := keep (fun r => group_key d q r K).
Definition covered (d : mdb) (q : qspec) (K : gkey) : list (list entry) -> list (list entry) -> Prop := keep (fun r => exists K', group_key d q r K' /\ (K = K' \/ encloses K K')).
Definition below (i : bool) := if i then covered else members.
