(* Model of the .cali text format: src/common/util/format_util.h, Variant::write_cali and
   Variant::from_string (src/common/Variant.cpp), src/common/StringConverter.cpp (to_bool,
   to_uint), and the line level of src/reader/CaliWriter.cpp and src/reader/CaliReader.cpp.

   Characters are bytes 0..255; char is signed (x86-64), so bytes >= 128 are negative.
   The formatting and parsing of doubles (ostream << double, strtod) is not modelled: it is a
   parameter of write_value / from_string. *)
From Verif Require Import Base VariantModel VariantSpec NamesModel.

Definition c_comma : N := 44.  Definition c_eq : N := 61.  Definition c_bs : N := 92.
Definition c_nl : N := 10.     Definition c_n : N := 110.  Definition c_minus : N := 45.
Definition c_plus : N := 43.

(* c < 0x20 for a signed char *)
Definition ctrl (c : N) : bool := (c <? 32) || (128 <=? c).

(* write_uint64, format_util.h:18-29: digits are written backwards into buf[24]; None: p would
   become negative *)
Fixpoint wr_digits (base : N) (fuel : nat) (n : N) (acc : bytes) : option bytes :=
  match fuel with
  | O => None
  | S f => let d := n mod base in
           let acc' := (if d <? 10 then 48 + d else 87 + d) :: acc in
           if 0 <? n / base then wr_digits base f (n / base) acc' else Some acc'
  end.
Definition write_uint64 (n : N) : option bytes := wr_digits 10 24 n [].
(* the text itself; also operator<< of an integer (libstdc++ writes the same digits) and, with
   base 16, std::hex *)
Definition dec (n : N) : bytes := match write_uint64 n with Some l => l | None => [] end.
Definition hex (n : N) : bytes := match wr_digits 16 24 n [] with Some l => l | None => [] end.

(* write_cali_esc_string, format_util.h:55-75 *)
Definition esc1 (c : N) : bytes :=
  if ctrl c then (if c =? c_nl then [c_bs; c_n] else [])
  else if (c =? c_bs) || (c =? c_comma) || (c =? c_eq) then [c_bs; c] else [c].
Definition esc (s : bytes) : bytes := flat_map esc1 s.

(* Variant::to_string for USR, Variant.cpp:42-55 (setw(2) only affects the first element) *)
Definition usr_text (s : bytes) : bytes :=
  match s with
  | [] => []
  | b :: r => (if b <? 16 then [48] else []) ++ hex b ++ [58] ++ flat_map (fun x => hex x ++ [58]) r
  end.

Section Doubles.
Variable dfmt : N -> bytes.            (* ostream << double *)
Variable dparse : bytes -> option N.   (* strtod; None: nothing parsed *)

(* Variant::write_cali, Variant.cpp:150-176.  STRING: exactly size() bytes. *)
Definition write_value (v : value) : bytes :=
  match v with
  | VInv => []
  | VInt z => if (z <? 0)%Z then c_minus :: dec (Z.to_N (- z)) else dec (Z.to_N z)
  | VDouble b => dfmt b
  | VUint n => dec n
  | VStr s => esc s
  | VType t => type2string t
  | VUsr s => esc (usr_text s)
  | VAddr n => esc (hex n)
  | VBool b => esc (if b then [116;114;117;101] else [102;97;108;115;101])
  | VPtr p => esc (hex p)
  end.

(* std::string::c_str() as a C string: up to the first NUL *)
Fixpoint cstr (s : bytes) : bytes := match s with [] => [] | c :: r => if c =? 0 then [] else c :: cstr r end.
(* isspace in the C locale *)
Definition isspace (c : N) : bool := (c =? 32) || ((9 <=? c) && (c <=? 13)).
Fixpoint skip_ws (s : bytes) : bytes := match s with c :: r => if isspace c then skip_ws r else s | [] => [] end.
Definition isdigit (c : N) : bool := (48 <=? c) && (c <=? 57).
Definition hexval (c : N) : option N :=
  if isdigit c then Some (c - 48)
  else if (97 <=? c) && (c <=? 102) then Some (c - 87)
  else if (65 <=? c) && (c <=? 70) then Some (c - 55) else None.
Definition digval (base c : N) : option N :=
  match hexval c with Some d => if d <? base then Some d else None | None => None end.
(* the digits of strtoll / strtoull: mathematical value, and whether there was a digit *)
Fixpoint acc_digits (base : N) (s : bytes) (acc : N) (any : bool) : N * bool :=
  match s with
  | c :: r => match digval base c with Some d => acc_digits base r (acc * base + d) true | None => (acc, any) end
  | [] => (acc, any)
  end.
Definition sign_of (s : bytes) : bool * bytes :=
  match s with c :: r => if c =? c_minus then (true, r) else if c =? c_plus then (false, r) else (false, s) | [] => (false, []) end.
(* optional 0x prefix of base 16, only if a hex digit follows *)
Definition skip_0x (s : bytes) : bytes :=
  match s with
  | 48 :: x :: d :: r => if ((x =? 120) || (x =? 88)) && (match hexval d with Some _ => true | None => false end) then d :: r else s
  | _ => s
  end.
(* strtoll(str, &end, 10); None: end == str.  Out of range values are clamped. *)
Definition strtoll (s : bytes) : option Z :=
  let (neg, r) := sign_of (skip_ws s) in
  match acc_digits 10 r 0 false with
  | (n, true) => let z := (if neg then - Z.of_N n else Z.of_N n)%Z in Some (Z.max LLONG_MIN (Z.min LLONG_MAX z))
  | (_, false) => None
  end.
(* std::stoull(str, nullptr, base): None for an exception (no digits, out of range) *)
Definition stoull (base : N) (s : bytes) : option N :=
  let (neg, r) := sign_of (skip_ws s) in
  match acc_digits base (if base =? 16 then skip_0x r else r) 0 false with
  | (n, true) => if n <? W64 then Some (if neg then wrap64 (W64 - n) else n) else None
  | (_, false) => None
  end.
(* util::str_to_uint64, parse_util.h:41-48 *)
Fixpoint str_to_uint64 (s : bytes) (acc : N) (any : bool) : option N :=
  match s with
  | c :: r => if isdigit c then str_to_uint64 r (wrap64 (acc * 10 + (c - 48))) true else if any then Some acc else None
  | [] => if any then Some acc else None
  end.
Definition tolower (c : N) : N := if (65 <=? c) && (c <=? 90) then c + 32 else c.
(* StringConverter::to_bool, StringConverter.cpp:23-58 *)
Definition to_bool_str (s : bytes) : option bool :=
  let l := map tolower s in
  if beqb l [116;114;117;101] || beqb l [116] then Some true
  else if beqb l [102;97;108;115;101] || beqb l [102] then Some false
  else match stoull 10 s with Some n => Some (negb (n =? 0)) | None => None end.

(* Variant::from_string, Variant.cpp:102-148 *)
Definition from_string (ty : N) (s0 : bytes) : value :=
  let s := cstr s0 in
  if ty =? T_STRING then VStr s
  else if ty =? T_INT then match strtoll s with Some z => VInt z | None => VInv end
  else if ty =? T_ADDR then match stoull 16 s with Some n => VAddr n | None => VInv end
  else if ty =? T_UINT then match str_to_uint64 s 0 false with Some n => VUint n | None => VInv end
  else if ty =? T_DOUBLE then match dparse s with Some b => VDouble b | None => VInv end
  else if ty =? T_BOOL then match to_bool_str s with Some b => VBool b | None => VInv end
  else if ty =? T_TYPE then let t := string2type s in if t =? T_INV then VInv else VType t
  else VInv.
(* CaliperMetadataDBImpl::make_string_variant, CaliperMetadataDB.cpp:116-139: content up to len
   (minus a trailing NUL), copied with strncpy and terminated.  Modelled on strings without
   embedded NUL, where strncpy copies all of it. *)
Definition drop_last_nul (s : bytes) : bytes := match rev s with 0 :: r => rev r | _ => s end.
(* make_variant, CaliperMetadataDB.cpp:141-160 *)
Definition make_variant (ty : N) (s : bytes) : value :=
  if ty =? T_INV then VInv
  else if ty =? T_USR then VUsr []
  else if ty =? T_STRING then VStr (drop_last_nul s)
  else from_string ty s.
End Doubles.

(* ---------------- writer lines ---------------- *)
Definition rec_node_id : bytes := [95;95;114;101;99;61;110;111;100;101;44;105;100;61].  (* __rec=node,id= *)
Definition k_attr : bytes := [44;97;116;116;114;61].       (* ,attr= *)
Definition k_data : bytes := [44;100;97;116;97;61].        (* ,data= *)
Definition k_parent : bytes := [44;112;97;114;101;110;116;61]. (* ,parent= *)
Definition rec_ctx : bytes := [95;95;114;101;99;61;99;116;120].  (* __rec=ctx *)
Definition rec_globals : bytes := [95;95;114;101;99;61;103;108;111;98;97;108;115].  (* __rec=globals *)
Definition k_ref0 : bytes := [44;114;101;102].             (* ,ref *)
Definition k_attr0 : bytes := [44;97;116;116;114].         (* ,attr *)
Definition k_data0 : bytes := [44;100;97;116;97].          (* ,data *)
(* write_node_content, CaliWriter.cpp:24-35; text: write_cali of the data; without the newline *)
Definition node_line (id attr : N) (text : bytes) (parent : option N) : bytes :=
  rec_node_id ++ dec id ++ k_attr ++ dec attr ++ k_data ++ text ++
  match parent with Some p => if p =? INV_ID then [] else k_parent ++ dec p | None => [] end.
(* write_record_content, CaliWriter.cpp:37-67 *)
Definition eq_list (l : list bytes) : bytes := flat_map (fun t => c_eq :: t) l.
Definition record_line (globals : bool) (refs attrs : list N) (texts : list bytes) : bytes :=
  (if globals then rec_globals else rec_ctx) ++
  (match refs with [] => [] | _ => k_ref0 ++ eq_list (map dec refs) end) ++
  (match attrs with [] => [] | _ => k_attr0 ++ eq_list (map dec attrs) ++ k_data0 ++ eq_list texts end).

(* ---------------- reader: CaliReader.cpp ---------------- *)
(* fast_istringstream is the list of the remaining characters.
   matches(char), lines 38-47 *)
Definition matches_c (c : N) (s : bytes) : option bytes :=
  match s with x :: r => if c =? x then Some r else None | [] => None end.
(* matches(size_t, const char pointer), lines 49-58: strict it_ + N < end_ *)
Definition matches (key s : bytes) : option bytes :=
  if (length key <? length s)%nat && is_prefix key s then Some (skipn (length key) s) else None.
(* a char minus '0', converted to uint64_t *)
Definition char_digit (c : N) : N := if c <? 128 then wrap64 (c + W64 - 48) else wrap64 (c + W64 - 256 - 48).
(* read_uint64_element, lines 63-79 *)
Fixpoint read_u64 (s : bytes) (acc : N) : N * bytes :=
  match s with
  | [] => (acc, [])
  | c :: r => if (c =? c_eq) || (c =? c_comma) then (acc, s) else read_u64 r (wrap64 (acc * 10 + char_digit c))
  end.
(* read_escaped_word, lines 81-106; escape: the flag; w reversed *)
Fixpoint read_word_loop (s : bytes) (escape : bool) (w : bytes) : bytes * bytes :=
  match s with
  | [] => (rev w, [])
  | c :: r =>
      if escape then read_word_loop r false ((if c =? c_n then c_nl else c) :: w)
      else if (c =? c_eq) || (c =? c_comma) then (rev w, s)
      else if c =? c_bs then read_word_loop r true w
      else read_word_loop r false (c :: w)
  end.
Definition read_escaped_word (s : bytes) : bytes * bytes := read_word_loop s false [].
(* read_id_list / read_string_list, lines 108-130: do ... while (matches('=')).
   fuel: each further round consumes a character *)
Fixpoint read_list {A} (elem : bytes -> A * bytes) (fuel : nat) (s : bytes) : list A * bytes :=
  let (x, r) := elem s in
  match fuel with
  | O => ([x], r)
  | S f => match matches_c c_eq r with
           | Some r' => let (l, r'') := read_list elem f r' in (x :: l, r'')
           | None => ([x], r)
           end
  end.
Definition read_id_list (s : bytes) := read_list (fun s => read_u64 s 0) (length s) s.
Definition read_string_list (s : bytes) := read_list read_escaped_word (length s) s.

Definition m_attr : bytes := [97;116;116;114;61].  Definition m_data : bytes := [100;97;116;97;61].
Definition m_id : bytes := [105;100;61].  Definition m_parent : bytes := [112;97;114;101;110;116;61].
Definition m_ref : bytes := [114;101;102;61].
Definition m_rec_node : bytes := [95;95;114;101;99;61;110;111;100;101;44].
Definition m_rec_ctx : bytes := [95;95;114;101;99;61;99;116;120;44].
Definition m_rec_globals : bytes := [95;95;114;101;99;61;103;108;111;98;97;108;115;44].

(* the loop of read_node, lines 148-167 *)
Record nfields := mknf { f_id : N; f_attr : N; f_par : N; f_data : bytes }.
Fixpoint node_loop (fuel : nat) (s : bytes) (f : nfields) : nfields :=
  match fuel with
  | O => f
  | S k =>
      let cont (f' : nfields) (r : bytes) := match matches_c c_comma r with Some r' => node_loop k r' f' | None => f' end in
      match matches m_attr s with
      | Some r => let (n, r') := read_u64 r 0 in cont (mknf (f_id f) n (f_par f) (f_data f)) r'
      | None =>
      match matches m_data s with
      | Some r => let (w, r') := read_escaped_word r in cont (mknf (f_id f) (f_attr f) (f_par f) w) r'
      | None =>
      match matches m_id s with
      | Some r => let (n, r') := read_u64 r 0 in cont (mknf n (f_attr f) (f_par f) (f_data f)) r'
      | None =>
      match matches m_parent s with
      | Some r => let (n, r') := read_u64 r 0 in cont (mknf (f_id f) (f_attr f) n (f_data f)) r'
      | None => f
      end end end end
  end.
(* the loop of read_snapshot / read_globals, lines 185-196, 221-232 *)
Record rfields := mkrf { f_refs : list N; f_attrs : list N; f_datas : list bytes }.
Fixpoint rec_loop (fuel : nat) (s : bytes) (f : rfields) : rfields :=
  match fuel with
  | O => f
  | S k =>
      let cont (f' : rfields) (r : bytes) := match matches_c c_comma r with Some r' => rec_loop k r' f' | None => f' end in
      match matches m_ref s with
      | Some r => let (l, r') := read_id_list r in cont (mkrf l (f_attrs f) (f_datas f)) r'
      | None =>
      match matches m_attr s with
      | Some r => let (l, r') := read_id_list r in cont (mkrf (f_refs f) l (f_datas f)) r'
      | None =>
      match matches m_data s with
      | Some r => let (l, r') := read_string_list r in cont (mkrf (f_refs f) (f_attrs f) l) r'
      | None => f
      end end end
  end.
(* read_record, lines 243-260, up to the calls into the metadata database *)
Inductive parsed := PNode (f : nfields) | PCtx (f : rfields) | PGlobals (f : rfields) | PError.
Definition parse_line (s : bytes) : parsed :=
  match matches m_rec_node s with
  | Some r => PNode (node_loop (S (length r)) r (mknf INV_ID INV_ID INV_ID []))
  | None =>
  match matches m_rec_ctx s with
  | Some r => PCtx (rec_loop (S (length r)) r (mkrf [] [] []))
  | None =>
  match matches m_rec_globals s with
  | Some r => PGlobals (rec_loop (S (length r)) r (mkrf [] [] []))
  | None => PError
  end end end.
(* std::getline loop of read, lines 262-273: lines are separated by newline, empty lines are
   skipped; a final line without newline counts *)
Fixpoint split_lines (s : bytes) (cur : bytes) : list bytes :=
  match s with
  | [] => match cur with [] => [] | _ => [rev cur] end
  | c :: r => if c =? c_nl then (match cur with [] => split_lines r [] | _ => rev cur :: split_lines r [] end)
              else split_lines r (c :: cur)
  end.
