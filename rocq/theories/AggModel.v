(* Model of src/reader/Aggregator.cpp on the metadata database of CaliFileModel.

   Simplifications:
   - one add() or flush() is one atomic step (both hold m_lock);
   - attributes are looked up by name at every use; the code caches the first successful lookup
     (CustomAttributeManager / AggregationAttributeManager, lines 40-93; update_key_attributes, 1008-1019),
     which gives the same result because the database never changes the attribute of a name
     (AggProofs.alookup_stable);
   - a kernel's loop over the record is split into the selection of the matching entries (kmatch) and the
     body (kupd); attribute creation, which happens inside the loop over the kernels, is done before it;
   - the scale argument of scale/ratio/scale_count is given as a double (std::stod is not modelled);
   - std::sort is a stable insertion sort (libstdc++ for <= 16 elements);
   - attribute ids identify attributes (Attribute::operator== compares nodes). *)
From Verif Require Import Base VariantModel VariantSpec NamesModel TextModel TreeModel CaliFileModel FloatModel ArithSpec.
Open Scope N_scope.

Definition entry_eq_dec (a b : entry) : {a = b} + {a <> b}.
Proof. decide equality; try apply N.eq_dec. apply value_eq_dec. Defined.
Definition key_eq_dec (a b : list entry) : {a = b} + {a <> b} := list_eq_dec entry_eq_dec a b.
(* operator== on vector<Entry>: Entry.h:105-111 *)
Definition keqb (a b : list entry) : bool := if key_eq_dec a b then true else false.

(* ---------------- kernels ---------------- *)
(* the kernel configurations, lines 139-806 and the table 838-872; incl: the inclusive variant *)
Inductive kcfg :=
| CCount
| CScount (arg : bytes) (scale : N)
| CSum (x : bytes) (incl : bool)
| CScale (x : bytes) (scale : N) (incl : bool)
| CMin (x : bytes) (incl : bool)
| CMax (x : bytes) (incl : bool)
| CAvg (x : bytes)
| CRatio (x y : bytes) (scale : N) (incl : bool)
| CPct (x : bytes) (incl : bool)
| CAny (x : bytes)
| CVar (x : bytes).
(* is_inclusive *)
Definition is_incl (c : kcfg) : bool :=
  match c with CSum _ i | CScale _ _ i | CMin _ i | CMax _ i | CRatio _ _ _ i | CPct _ i => i | _ => false end.
(* kernel state: counter and up to two accumulated variants (sum, min, max, any value; sum1/sum2;
   sum/isum; for variance sum and square sum as doubles) *)
Record kst := mkk { k_n : N; k_a : value; k_b : value }.
(* constructors, e.g. 152, 290, 500, 766 *)
Definition k_init (c : kcfg) : kst := match c with CVar _ => mkk 0 (VDouble 0) (VDouble 0) | _ => mkk 0 VInv VInv end.

(* name prefixes; the strings in the Config constructors *)
Definition p_sum : bytes := [115;117;109;35].                          (* sum# *)
Definition p_incl : bytes := [105;110;99;108;117;115;105;118;101;35].  (* inclusive# *)
Definition p_scsum : bytes := [115;99;115;117;109;35].                 (* scsum# *)
Definition p_iscsum : bytes := [105;115;99;115;117;109;35].            (* iscsum# *)
Definition p_scale : bytes := [115;99;97;108;101;35].                  (* scale# *)
Definition p_iscale : bytes := [105;115;99;97;108;101;35].             (* iscale# *)
Definition p_min : bytes := [109;105;110;35].                          (* min# *)
Definition p_imin : bytes := [105;109;105;110;35].                     (* imin# *)
Definition p_max : bytes := [109;97;120;35].                           (* max# *)
Definition p_imax : bytes := [105;109;97;120;35].                      (* imax# *)
Definition p_avg : bytes := [97;118;103;35].                           (* avg# *)
Definition p_avgsum : bytes := [97;118;103;46;115;117;109;35].         (* avg.sum# *)
Definition p_avgcnt : bytes := [97;118;103;46;99;111;117;110;116;35].  (* avg.count# *)
Definition p_srsum : bytes := [115;114;46;115;117;109;35].             (* sr.sum# *)
Definition p_isrsum : bytes := [105;115;114;46;115;117;109;35].        (* isr.sum# *)
Definition p_ratio : bytes := [114;97;116;105;111;35].                 (* ratio# *)
Definition p_iratio : bytes := [105;114;97;116;105;111;35].            (* iratio# *)
Definition p_pctsum : bytes := [112;99;116;46;115;117;109;35].         (* pct.sum# *)
Definition p_ipctsum : bytes := [105;112;99;116;46;115;117;109;35].    (* ipct.sum# *)
Definition p_pct : bytes := [112;101;114;99;101;110;116;95;116;111;116;97;108;35].       (* percent_total# *)
Definition p_ipct : bytes := [105;112;101;114;99;101;110;116;95;116;111;116;97;108;35].  (* ipercent_total# *)
Definition p_any : bytes := [97;110;121;35].                           (* any# *)
Definition p_var : bytes := [118;97;114;105;97;110;99;101;35].         (* variance# *)
Definition p_varcnt : bytes := [118;97;114;46;99;111;117;110;116;35].  (* var.count# *)
Definition p_varsum : bytes := [118;97;114;46;115;117;109;35].         (* var.sum# *)
Definition p_varsq : bytes := [118;97;114;46;115;113;115;117;109;35].  (* var.sqsum# *)
Definition n_count : bytes := [99;111;117;110;116].                    (* count *)
Definition n_scount : bytes := [115;99;111;117;110;116].               (* scount *)
Definition p_scount : bytes := [115;99;111;117;110;116;35].            (* scount# *)
Definition sel (i : bool) (a b : bytes) : bytes := if i then a else b.
(* ASVALUE | AGGREGATABLE | SKIP_EVENTS (lines 48, 73); VarianceKernel: SKIP_EVENTS | ASVALUE (731) *)
Definition AGGPROP : Z := 2113.
Definition VARPROP : Z := 65.

(* The attributes a kernel matches, with the role of each (0: target attribute, others: results of an
   earlier aggregation) — role, name, and type if the attribute is created without a target attribute.
   None: the type of the target attribute. *)
Record kattr := mkka { ka_role : nat; ka_name : bytes; ka_type : option N; ka_prop : Z }.
(* target name and its result attribute(s) needed for matching *)
Definition kattrs (c : kcfg) : list (bytes * list kattr) :=
  match c with
  | CCount => [([], [mkka 1 n_count (Some T_UINT) AGGPROP])]
  | CScount arg _ => [([], [mkka 1 (p_scount ++ arg) (Some T_UINT) AGGPROP])]
  | CSum x i => [(x, [mkka 1 (sel i p_incl p_sum ++ x) None AGGPROP])]
  | CScale x _ i => [(x, [mkka 1 (sel i p_iscsum p_scsum ++ x) None (AGGPROP + HIDDEN)])]
  | CMin x i => [(x, [mkka 1 (sel i p_imin p_min ++ x) None AGGPROP])]
  | CMax x i => [(x, [mkka 1 (sel i p_imax p_max ++ x) None AGGPROP])]
  | CAvg x => [(x, [mkka 1 (p_avgsum ++ x) None (AGGPROP + HIDDEN); mkka 2 (p_avgcnt ++ x) (Some T_UINT) (AGGPROP + HIDDEN)])]
  | CRatio x y _ i => [(x, [mkka 1 (sel i p_isrsum p_srsum ++ x) None (AGGPROP + HIDDEN)]); (y, [mkka 1 (sel i p_isrsum p_srsum ++ y) None (AGGPROP + HIDDEN)])]
  | CPct x i => [(x, [mkka 1 (sel i p_ipctsum p_pctsum ++ x) None (AGGPROP + HIDDEN)])]
  | CAny x => [(x, [mkka 1 (p_any ++ x) None AGGPROP])]
  | CVar x => [(x, [mkka 4 (p_var ++ x) (Some T_DOUBLE) VARPROP; mkka 2 (p_varcnt ++ x) (Some T_UINT) (VARPROP + HIDDEN);
                    mkka 1 (p_varsum ++ x) (Some T_DOUBLE) (VARPROP + HIDDEN); mkka 3 (p_varsq ++ x) (Some T_DOUBLE) (VARPROP + HIDDEN)])]
  end.
(* db.get_attribute(name): CaliperMetadataDB.cpp:303-309 *)
Definition get_attr (d : mdb) (name : bytes) : option N := alookup (d_attrs d) name.
(* CustomAttributeManager::get / AggregationAttributeManager::derived_attr, lines 56-61, 86-91 *)
Definition make_attr (d : mdb) (tgt : option N) (k : kattr) : N * mdb :=
  create_attribute d (ka_name k) (match ka_type k with Some t => t | None => match tgt with Some t => attr_type d t | None => T_INV end end) (ka_prop k).
Fixpoint make_attrs (d : mdb) (tgt : option N) (l : list kattr) : list (N * nat) * mdb :=
  match l with
  | [] => ([], d)
  | k :: r => let (i, d1) := make_attr d tgt k in let (is, d2) := make_attrs d1 tgt r in ((i, ka_role k) :: is, d2)
  end.
(* does this kernel have a target attribute *)
Definition no_target (c : kcfg) : bool := match c with CCount | CScount _ _ => true | _ => false end.
(* Entry::attribute(), Entry.h:58-65 *)
Definition e_attr (d : mdb) (e : entry) : N :=
  match e with EImm a _ => a | ERef i => match dnode d i with Some n => n_attr n | None => INV_ID end end.
(* Entry::value() *)
Definition e_val (d : mdb) (e : entry) : value :=
  match e with EImm _ v => v | ERef i => match dnode d i with Some n => n_val n | None => VInv end end.
(* kernels that compare e.attribute() (145-148, 213-216, 483-497, 747-766) instead of e.node()->id() (95-108) *)
Definition by_attribute (c : kcfg) : bool := match c with CCount | CScount _ _ | CAvg _ | CVar _ => true | _ => false end.
Definition e_id (c : kcfg) (d : mdb) (e : entry) : N := if by_attribute c then e_attr d e else entry_node e.
Fixpoint role_of (l : list (N * nat)) (a : N) : option nat := match l with (k, r) :: t => if k =? a then Some r else role_of t a | [] => None end.
(* the entries of rec that match, with their role and value *)
Definition match_rec (c : kcfg) (d : mdb) (ids : list (N * nat)) (rec : list entry) : list (nat * value) :=
  flat_map (fun e => match role_of ids (e_id c d e) with Some r => [(r, e_val d e)] | None => [] end) rec.
(* one target: nothing if the target attribute does not exist (99-100, 475-477, 741-742) *)
Definition kmatch1 (c : kcfg) (d : mdb) (rec : list entry) (x : bytes * list kattr) : list (nat * value) * mdb :=
  if no_target c then
    let (ids, d1) := make_attrs d None (snd x) in (match_rec c d1 ids rec, d1)
  else
    match get_attr d (fst x) with
    | None => ([], d)
    | Some t => let (ids, d1) := make_attrs d (Some t) (snd x) in (match_rec c d1 ((t, 0%nat) :: ids) rec, d1)
    end.
(* targets in order; the second target (ratio) has roles + 10 *)
Fixpoint kmatch_l (c : kcfg) (d : mdb) (rec : list entry) (l : list (bytes * list kattr)) (base : nat) : list (nat * value) * mdb :=
  match l with
  | [] => ([], d)
  | x :: r => let (m, d1) := kmatch1 c d rec x in let (m2, d2) := kmatch_l c d1 rec r (base + 10)%nat in
              (map (fun p => ((base + fst p)%nat, snd p)) m ++ m2, d2)
  end.
Definition kmatch (c : kcfg) (d : mdb) (rec : list entry) : list (nat * value) * mdb := kmatch_l c d rec (kattrs c) 0.

(* the update for the matched entries.  own: aggregate (true) or parent_aggregate (false; differs for
   percent_total only, 622-637) *)
Definition kupd1 (c : kcfg) (own : bool) (k : kst) (p : nat * value) : kst :=
  let (r, v) := p in
  match c with
  | CCount | CScount _ _ => k (* see kupd *)
  | CSum _ _ | CScale _ _ _ => mkk (k_n k) (vadd (k_a k) v) (k_b k)
  | CMin _ _ => mkk (k_n k) (vmin (k_a k) v) (k_b k)
  | CMax _ _ => mkk (k_n k) (vmax (k_a k) v) (k_b k)
  | CAvg _ =>
      match r with
      | 0%nat => mkk (wrap64 (k_n k + 1)) (vadd (k_a k) v) (k_b k)
      | 1%nat => mkk (k_n k) (vadd (k_a k) v) (k_b k)
      | _ => mkk (wrap64 (k_n k + v_u64 v)) (k_a k) (k_b k)
      end
  | CRatio _ _ _ _ => if (r <? 10)%nat then mkk (k_n k) (vadd (k_a k) v) (k_b k) else mkk (k_n k) (k_a k) (vadd (k_b k) v)
  | CPct _ _ => mkk (k_n k) (if own then vadd (k_a k) v else k_a k) (vadd (k_b k) v)
  | CAny _ => mkk (k_n k) v (k_b k)
  | CVar _ =>
      match r with
      | 0%nat => mkk ((k_n k + 1) mod 4294967296) (vadd (k_a k) (VDouble (v_f64 v))) (vadd (k_b k) (VDouble (dmul (v_f64 v) (v_f64 v))))
      | 1%nat => mkk (k_n k) (vadd (k_a k) (VDouble (v_f64 v))) (k_b k)
      | 3%nat => mkk (k_n k) (k_a k) (vadd (k_b k) (VDouble (v_f64 v)))
      | 2%nat => mkk ((k_n k + v_u64 v) mod 4294967296) (k_a k) (k_b k)
      | _ => k
      end
  end.
Definition kupd (c : kcfg) (own : bool) (ms : list (nat * value)) (k : kst) : kst :=
  match c with
  (* lines 141-154, 209-221: the first count entry, or one *)
  | CCount | CScount _ _ => mkk (wrap64 (k_n k + match ms with (_, v) :: _ => v_u64 v | [] => 1 end)) (k_a k) (k_b k)
  (* lines 683-688: only while no value is set *)
  | CAny _ => match k_a k with VInv => fold_left (kupd1 c own) ms k | _ => k end
  | _ => fold_left (kupd1 c own) ms k
  end.
(* number of matches returned by aggregate, > 0; used for inclusive kernels only.  A variance# entry
   (role 4) is not a match *)
Definition matched (ms : list (nat * value)) : bool := match ms with [] => false | _ => true end.
(* PercentTotalKernel::Config::add (573-576): the total over all own entries *)
Definition ktot (c : kcfg) (ms : list (nat * value)) (t : value) : value :=
  match c with CPct _ _ => fold_left (fun t p => vadd t (snd p)) ms t | _ => t end.

(* ---------------- entries and hash chains ---------------- *)
Record aentry := mkae { ae_key : list entry; ae_ker : list kst; ae_next : nat }.
(* m_entries with the blocked slot 0, m_hashmap, totals of the kernel configs *)
Record agg := mkagg { g_ents : list (option aentry); g_hash : list nat; g_tot : list value }.
Definition NHASH : nat := 4096.
Definition agg_init (cs : list kcfg) : agg := mkagg [None] (repeat 0%nat NHASH) (map (fun _ => VInv) cs).
(* compute_key_hash, lines 29-38, modulo the table size (line 1036); size_t arithmetic *)
Definition key_hash (key : list entry) : nat :=
  N.to_nat (fold_left (fun h e => match e with EImm a v => wrap64 (wrap64 (h + a) + v_u64 v) | ERef i => wrap64 (h + i) end) key 0 mod N.of_nat NHASH).
Definition ent (g : agg) (i : nat) : option aentry := match nth_error (g_ents g) i with Some (Some e) => Some e | _ => None end.
(* the chain walk, lines 1037-1040; fuel: number of entries *)
Fixpoint chain (fuel : nat) (g : agg) (key : list entry) (i : nat) : option nat :=
  match fuel with
  | O => None
  | S f => match i with
           | O => None
           | _ => match ent g i with
                  | Some e => if keqb key (ae_key e) then Some i else chain f g key (ae_next e)
                  | None => None
                  end
           end
  end.
Definition upd_nth {A} (l : list A) (i : nat) (x : A) : list A := firstn i l ++ match skipn i l with [] => [] | _ :: r => x :: r end.
(* get_aggregation_entry, lines 1032-1058 *)
Definition get_entry (cs : list kcfg) (g : agg) (key : list entry) : nat * agg :=
  let h := key_hash key in
  let top := nth h (g_hash g) 0%nat in
  match chain (length (g_ents g)) g key top with
  | Some i => (i, g)
  | None => let idx := length (g_ents g) in
            (idx, mkagg (g_ents g ++ [Some (mkae key (map k_init cs) top)]) (upd_nth (g_hash g) h idx) (g_tot g))
  end.
(* update of kernel j of entry i *)
Definition upd_kernel (g : agg) (i j : nat) (f : kst -> kst) : agg :=
  match ent g i with
  | Some e => match nth_error (ae_ker e) j with
              | Some k => mkagg (upd_nth (g_ents g) i (Some (mkae (ae_key e) (upd_nth (ae_ker e) j (f k)) (ae_next e)))) (g_hash g) (g_tot g)
              | None => g
              end
  | None => g
  end.
Definition upd_tot (g : agg) (j : nat) (f : value -> value) : agg :=
  match nth_error (g_tot g) j with Some t => mkagg (g_ents g) (g_hash g) (upd_nth (g_tot g) j (f t)) | None => g end.
(* one record after unraveling: key, keys of the parent nodes (nearest first), matches per kernel *)
Record step := mkstep { s_key : list entry; s_anc : list (list entry); s_in : list (list (nat * value)) }.
(* the parent loop, lines 1123-1129 *)
Fixpoint parents (cs : list kcfg) (g : agg) (anc : list (list entry)) (j : nat) (c : kcfg) (ms : list (nat * value)) : agg :=
  match anc with
  | [] => g
  | a :: r => let (i, g1) := get_entry cs g a in parents cs (upd_kernel g1 i j (kupd c false ms)) r j c ms
  end.
(* the kernel loop, lines 1119-1131 *)
Fixpoint kernels (cs : list kcfg) (g : agg) (idx : nat) (anc : list (list entry)) (j : nat) (l : list (kcfg * list (nat * value))) : agg :=
  match l with
  | [] => g
  | (c, ms) :: r =>
      let g1 := upd_tot (upd_kernel g idx j (kupd c true ms)) j (ktot c ms) in
      let g2 := if is_incl c && matched ms then parents cs g1 anc j c ms else g1 in
      kernels cs g2 idx anc (S j) r
  end.
Definition run_step (cs : list kcfg) (g : agg) (s : step) : agg :=
  let (idx, g1) := get_entry cs g (s_key s) in kernels cs g1 idx (s_anc s) 0 (combine cs (s_in s)).

(* ---------------- key computation ---------------- *)
(* grouping configuration, configure(), lines 926-945 *)
Record qspec := mkq { q_keys : list bytes; q_all : bool; q_nested : bool; q_ker : list kcfg }.
Definition NESTED : Z := 256.
Definition is_nested (d : mdb) (a : N) : bool := negb (Z.land (attr_props d a) NESTED =? 0)%Z.
(* is_key, lines 1021-1030, with the attributes of the key names that exist so far *)
Definition is_key (d : mdb) (keys : list bytes) (a : N) : bool :=
  existsb (fun s => match get_attr d s with
                    | Some k => (k =? a) || match climb (length (d_nodes d)) (dnode d) a k with Some _ => true | None => false end
                    | None => false
                    end) keys.
(* nodes from i up to the root, leaf first: the loop at 1078 *)
Fixpoint unravel (fuel : nat) (d : mdb) (i : N) : list (N * value) :=
  match fuel with
  | O => []
  | S f => match dnode d i with
           | Some n => (n_attr n, n_val n) :: match n_par n with Some p => unravel f d p | None => [] end
           | None => []
           end
  end.
Definition node_path (d : mdb) (i : N) : list (N * value) := unravel (length (d_nodes d)) d i.
Definition selected (d : mdb) (q : qspec) (a : N) : bool := q_all q || (q_nested q && is_nested d a) || is_key d (q_keys q) a.
(* all selected nodes of the record, in the order of the loops at 1076-1088 *)
Definition sel_nodes (d : mdb) (q : qspec) (rec : list entry) : list (N * value) :=
  flat_map (fun e => match e with ERef i => filter (fun x => selected d q (fst x)) (node_path d i) | EImm _ _ => [] end) rec.
Definition sel_imms (d : mdb) (q : qspec) (rec : list entry) : list (N * value) :=
  filter (fun x => is_key d (q_keys q) (fst x)) (imms_of rec).
(* std::sort by attribute id, lines 1096-1098 *)
Fixpoint ins_sorted (x : N * value) (l : list (N * value)) : list (N * value) :=
  match l with [] => [x] | y :: r => if fst x <? fst y then x :: l else y :: ins_sorted x r end.
Definition sort_imms (l : list (N * value)) : list (N * value) := fold_left (fun acc x => ins_sorted x acc) l [].
Definition nonpath_part (d : mdb) (q : qspec) (rec : list entry) : list (N * value) := rev (filter (fun x => negb (is_nested d (fst x))) (sel_nodes d q rec)).
Definition path_part (d : mdb) (q : qspec) (rec : list entry) : list (N * value) := rev (filter (fun x => is_nested d (fst x)) (sel_nodes d q rec)).
(* parents of node p up to the root, nearest first *)
Fixpoint ancestors (fuel : nat) (d : mdb) (p : N) : list N :=
  match fuel with
  | O => []
  | S f => match dnode d p with
           | Some n => match n_par n with Some q => match dnode d q with Some _ => q :: ancestors f d q | None => [] end | None => [] end
           | None => []
           end
  end.
(* lines 1060-1117: the key and the keys of the parents *)
Definition make_key (d : mdb) (q : qspec) (rec : list entry) : list entry * list (list entry) * mdb :=
  let imms := map (fun x => EImm (fst x) (snd x)) (sort_imms (sel_imms d q rec)) in
  let np := nonpath_part d q rec in
  let pp := path_part d q rec in
  let '(k1, d1) := match np with [] => (imms, d) | _ => let (i, d1) := make_tree_entry d np ROOT in (imms ++ [ERef i], d1) end in
  match pp with
  | [] => (k1, [], d1)
  | _ => let (i, d2) := make_tree_entry d1 pp ROOT in
         (k1 ++ [ERef i], map (fun a => k1 ++ [ERef a]) (ancestors (length (d_nodes d2)) d2 i), d2)
  end.
Fixpoint match_all (d : mdb) (rec : list entry) (cs : list kcfg) : list (list (nat * value)) * mdb :=
  match cs with [] => ([], d) | c :: r => let (m, d1) := kmatch c d rec in let (ms, d2) := match_all d1 rec r in (m :: ms, d2) end.
Definition mk_step (d : mdb) (q : qspec) (rec : list entry) : step * mdb :=
  let '(key, anc, d1) := make_key d q rec in
  let (ms, d2) := match_all d1 rec (q_ker q) in (mkstep key anc ms, d2).
(* process, lines 1060-1132 *)
Definition process (q : qspec) (st : mdb * agg) (rec : list entry) : mdb * agg :=
  let (s, d1) := mk_step (fst st) q rec in (d1, run_step (q_ker q) (snd st) s).

(* ---------------- flush ---------------- *)
(* append_result of each kernel; None: division by zero.  The total is the config's m_total *)
Definition res_attr (d : mdb) (x : bytes) (name : bytes) (ty : option N) (prop : Z) : N * mdb :=
  make_attr d (get_attr d x) (mkka 0 name ty prop).
Definition nonempty (v : value) : bool := match v with VInv => false | _ => true end.
Definition append_result (c : kcfg) (tot : value) (d : mdb) (k : kst) : option (list entry * mdb) :=
  match c with
  | CCount => if 0 <? k_n k then let (a, d1) := res_attr d [] n_count (Some T_UINT) AGGPROP in Some ([EImm a (VUint (k_n k))], d1) else Some ([], d)
  | CScount arg sc =>
      if 0 <? k_n k then
        let (a, d1) := res_attr d [] (p_scount ++ arg) (Some T_UINT) AGGPROP in
        let (b, d2) := res_attr d1 [] n_scount (Some T_DOUBLE) AGGPROP in
        Some ([EImm a (VUint (k_n k)); EImm b (VDouble (dmul sc (d_of_Z (Z.of_N (k_n k)))))], d2)
      else Some ([], d)
  | CSum x i => if nonempty (k_a k) then let (a, d1) := res_attr d x (sel i p_incl p_sum ++ x) None AGGPROP in Some ([EImm a (k_a k)], d1) else Some ([], d)
  | CMin x i => if nonempty (k_a k) then let (a, d1) := res_attr d x (sel i p_imin p_min ++ x) None AGGPROP in Some ([EImm a (k_a k)], d1) else Some ([], d)
  | CMax x i => if nonempty (k_a k) then let (a, d1) := res_attr d x (sel i p_imax p_max ++ x) None AGGPROP in Some ([EImm a (k_a k)], d1) else Some ([], d)
  | CAny x => if nonempty (k_a k) then let (a, d1) := res_attr d x (p_any ++ x) None AGGPROP in Some ([EImm a (k_a k)], d1) else Some ([], d)
  | CScale x sc i =>
      if nonempty (k_a k) then
        let (a, d1) := res_attr d x (sel i p_iscsum p_scsum ++ x) None (AGGPROP + HIDDEN) in
        let (b, d2) := res_attr d1 x (sel i p_iscale p_scale ++ x) (Some T_DOUBLE) AGGPROP in
        Some ([EImm a (k_a k); EImm b (VDouble (dmul sc (v_f64 (k_a k))))], d2)
      else Some ([], d)
  | CAvg x =>
      if 0 <? k_n k then
        let c32 := k_n k mod 4294967296 in
        match (if (c32 =? 0) && negb (is_double (k_a k)) && nonempty (k_a k) then None else Some (vdiv (k_a k) c32)) with
        | None => None
        | Some avg =>
            let (a, d1) := res_attr d x (p_avg ++ x) None AGGPROP in
            let (b, d2) := res_attr d1 x (p_avgsum ++ x) None (AGGPROP + HIDDEN) in
            let (e, d3) := res_attr d2 x (p_avgcnt ++ x) (Some T_UINT) (AGGPROP + HIDDEN) in
            Some ([EImm a avg; EImm b (k_a k); EImm e (VUint (k_n k))], d3)
        end
      else Some ([], d)
  | CRatio x y sc i =>
      let '(o1, d1) := if nonempty (k_a k) then let (a, d1) := res_attr d x (sel i p_isrsum p_srsum ++ x) None (AGGPROP + HIDDEN) in ([EImm a (k_a k)], d1) else ([], d) in
      if nonempty (k_b k) then
        let (b, d2) := res_attr d1 y (sel i p_isrsum p_srsum ++ y) None (AGGPROP + HIDDEN) in
        if nonempty (k_a k) then
          let (e, d3) := res_attr d2 [] (sel i p_iratio p_ratio ++ x ++ [47] ++ y) (Some T_DOUBLE) AGGPROP in
          Some (o1 ++ [EImm b (k_b k); EImm e (VDouble (ddiv (dmul sc (v_f64 (k_a k))) (v_f64 (k_b k))))], d3)
        else Some (o1 ++ [EImm b (k_b k)], d2)
      else Some (o1, d1)
  | CPct x i =>
      if nonempty (k_b k) && dltb 0 (v_f64 tot) then
        let (a, d1) := res_attr d x (sel i p_ipctsum p_pctsum ++ x) None (AGGPROP + HIDDEN) in
        let (b, d2) := res_attr d1 [] (sel i p_ipct p_pct ++ x) (Some T_DOUBLE) AGGPROP in
        Some ([EImm a (k_a k); EImm b (VDouble (ddiv (dmul 4636737291354636288 (v_f64 (k_b k))) (v_f64 tot)))], d2)
      else Some ([], d)
  | CVar x =>
      if 0 <? k_n k then
        let n := d_of_Z (Z.of_N (k_n k)) in
        let avg := ddiv (v_f64 (k_a k)) n in
        let (a, d1) := res_attr d [] (p_var ++ x) (Some T_DOUBLE) VARPROP in
        let (e, d2) := res_attr d1 [] (p_varcnt ++ x) (Some T_UINT) (VARPROP + HIDDEN) in
        let (b, d3) := res_attr d2 [] (p_varsum ++ x) (Some T_DOUBLE) (VARPROP + HIDDEN) in
        let (f, d4) := res_attr d3 [] (p_varsq ++ x) (Some T_DOUBLE) (VARPROP + HIDDEN) in
        Some ([EImm a (VDouble (dsub (ddiv (v_f64 (k_b k)) n) (dmul avg avg))); EImm b (k_a k); EImm f (k_b k); EImm e (VUint (k_n k))], d4)
      else Some ([], d)
  end.
Fixpoint append_results (l : list (kcfg * value * kst)) (d : mdb) : option (list entry * mdb) :=
  match l with
  | [] => Some ([], d)
  | (c, t, k) :: r => match append_result c t d k with
                      | Some (es, d1) => match append_results r d1 with Some (es2, d2) => Some (es ++ es2, d2) | None => None end
                      | None => None
                      end
  end.
(* flush, lines 1138-1151 *)
Fixpoint flush_ents (cs : list kcfg) (tot : list value) (l : list (option aentry)) (d : mdb) : option (list (list entry) * mdb) :=
  match l with
  | [] => Some ([], d)
  | None :: r => flush_ents cs tot r d
  | Some e :: r =>
      match append_results (combine (combine cs tot) (ae_ker e)) d with
      | Some (es, d1) => match flush_ents cs tot r d1 with Some (o, d2) => Some ((ae_key e ++ es) :: o, d2) | None => None end
      | None => None
      end
  end.
Definition flush (q : qspec) (st : mdb * agg) : option (list (list entry) * mdb) := flush_ents (q_ker q) (g_tot (snd st)) (g_ents (snd st)) (fst st).
(* Aggregator: add every record, then flush *)
Definition aggregate (q : qspec) (d : mdb) (recs : list (list entry)) : mdb * agg := fold_left (process q) recs (d, agg_init (q_ker q)).
