(* Models of src/common/Entry.cpp (pack/unpack), src/common/NodeBuffer.cpp and
   src/services/trace/TraceBufferChunk.cpp *)
From Verif Require Import Base VlencModel VariantModel VariantSpec.

(* Attribute::NAME_ATTR_ID, include/caliper/common/Attribute.h *)
Definition NAME_ATTR : N := 8.

(* Metadata access: node id -> (node's attribute id, node's data).  Models
   CaliperMetadataAccessInterface::node(id); None is the null pointer. *)
Definition metadb := N -> option (N * cvar).

(* Entry, include/caliper/common/Entry.h:30-112: a node pointer (here: the node's id and
   attribute, which is all pack() and operator== look at) and a value. *)
Inductive entry := EEmpty | EEnt (id attr : N) (val : cvar).

(* Entry::pack, src/common/Entry.cpp:59-66. None: null pointer dereference. *)
Definition entry_pack (e : entry) : option bytes :=
  match e with
  | EEmpty => None
  | EEnt id attr v => Some (vlenc id ++ (if attr =? NAME_ATTR then var_pack v else []))
  end.

(* Entry::unpack, src/common/Entry.cpp:68-80. None: null dereference (unknown id) or read
   past the end of the buffer. *)
Definition entry_unpack (db : metadb) (buf : bytes) : option (entry * bytes) :=
  match vldec buf with
  | None => None
  | Some (id, r) =>
      match db id with
      | None => None
      | Some (attr, data) =>
          if attr =? NAME_ATTR then
            match var_unpack r with
            | None => None
            | Some (v, _, r') => Some (EEnt id attr v, r')
            end
          else Some (EEnt id attr data, r)
      end
  end.

(* An entry as the API creates it against metadata db: Entry(Node ptr) (value = node data,
   Entry.h:44) or Entry(attr, value) (Entry.h:47). *)
Definition entry_of (db : metadb) (e : entry) : Prop :=
  match e with
  | EEmpty => False
  | EEnt id attr v =>
      u64_ok id /\
      exists data, db id = Some (attr, data) /\
        (attr = NAME_ATTR -> cvar_ok v /\ extract_type (ts v) <= MAXTYPE) /\
        (attr <> NAME_ATTR -> v = data)
  end.

(* ------------------------------------------------------------------------- *)
(* little-endian byte representation of a word *)
Fixpoint le_enc (k : nat) (n : N) : bytes :=
  match k with O => [] | S k' => n mod 256 :: le_enc k' (n / 256) end.
Fixpoint le_dec (b : bytes) : N :=
  match b with [] => 0 | x :: r => x + 256 * le_dec r end.

(* The bytes at Variant::data() (cali_variant_get_data, cali_variant.c:53-80), length
   Variant::size().  For PTR variants data() is the pointer itself, so pack_node would
   copy the 8 bytes it points to; PTR is for internal use only and not modelled (None). *)
Definition val_data (v : value) : option bytes :=
  match v with
  | VInv => Some []
  | VUsr s | VStr s => Some s
  | VInt z => Some (le_enc 8 (of_s64 z))
  | VUint n | VAddr n | VDouble n => Some (le_enc 8 n)
  | VBool b => Some [if b then 1 else 0]
  | VType t => Some (le_enc 4 t)
  | VPtr _ => None
  end.

(* cali_make_variant(type, ptr, size) reading its data at the front of [b]
   (cali_variant.c:82-132); None: read past the end, or a PTR value *)
Definition take (n : nat) (b : bytes) : option bytes :=
  if (n <=? length b)%nat then Some (firstn n b) else None.
Definition val_make (t : N) (size : N) (b : bytes) : option value :=
  if t =? T_INV then Some VInv
  else if t =? T_USR then option_map VUsr (take (N.to_nat size) b)
  else if t =? T_STRING then option_map VStr (take (N.to_nat size) b)
  else if t =? T_INT then option_map (fun d => VInt (s64 (le_dec d))) (take 8 b)
  else if t =? T_ADDR then option_map (fun d => VAddr (le_dec d)) (take 8 b)
  else if t =? T_UINT then option_map (fun d => VUint (le_dec d)) (take 8 b)
  else if t =? T_DOUBLE then option_map (fun d => VDouble (le_dec d)) (take 8 b)
  else if t =? T_BOOL then option_map (fun d => VBool (negb (le_dec d =? 0))) (take 1 b)
  else if t =? T_TYPE then option_map (fun d => VType (le_dec d)) (take 4 b)
  else None.

(* NodeBuffer::NodeInfo, src/common/NodeBuffer.h:32-37 *)
Record nodeinfo := mkni { ni_id : N; ni_attr : N; ni_parent : N; ni_val : value }.

(* pack_node, src/common/NodeBuffer.cpp:33-55; the first word wraps modulo 2^64 *)
Definition pack_node (i : nodeinfo) : option bytes :=
  match val_data (ni_val i) with
  | None => None
  | Some d =>
      let have_parent := negb (ni_parent i =? INV_ID) in
      Some (vlenc (wrap64 (2 * ni_id i + (if have_parent then 1 else 0)))
            ++ vlenc (ni_attr i)
            ++ (if have_parent then vlenc (ni_parent i) else [])
            ++ vlenc (val_type (ni_val i))
            ++ vlenc (N.of_nat (length d))
            ++ d)
  end.

(* unpack_node, src/common/NodeBuffer.cpp:57-81 *)
Definition unpack_node (b0 : bytes) : option (nodeinfo * bytes) :=
  match vldec b0 with None => None | Some (u, b1) =>
  match vldec b1 with None => None | Some (attr, b2) =>
  match (if u mod 2 =? 1 then vldec b2 else Some (INV_ID, b2)) with None => None | Some (parent, b3) =>
  match vldec b3 with None => None | Some (t, b4) =>
  match vldec b4 with None => None | Some (size, b5) =>
  match val_make (if t <=? MAXTYPE then t else T_INV) size b5 with None => None | Some v =>
    Some (mkni (u / 2) attr parent v, skipn (N.to_nat size) b5)
  end end end end end end.

(* max_packed_size, NodeBuffer.cpp:28-31 *)
Definition node_max_size (i : nodeinfo) : option N :=
  option_map (fun d => 50 + N.of_nat (length d)) (val_data (ni_val i)).

(* NodeBuffer: m_count, the written part of m_buffer (m_pos = its length), m_reserved_len *)
Record nbuf := mknb { nb_count : nat; nb_data : bytes; nb_reserved : N }.
Definition nbuf_init : nbuf := mknb 0 [] 0.

(* NodeBuffer::reserve/append, NodeBuffer.cpp:84-97,110-116.  None: write beyond the
   reserved length (heap overflow). *)
Definition nb_reserve (min : N) (b : nbuf) : nbuf :=
  if min <=? nb_reserved b then b else mknb (nb_count b) (nb_data b) (4096 + min * 2).
Definition nb_append (i : nodeinfo) (b : nbuf) : option nbuf :=
  match node_max_size i, pack_node i with
  | Some mx, Some p =>
      let b' := nb_reserve (N.of_nat (length (nb_data b)) + mx) b in
      if N.of_nat (length (nb_data b' ++ p)) <=? nb_reserved b'
      then Some (mknb (S (nb_count b')) (nb_data b' ++ p) (nb_reserved b'))
      else None
  | _, _ => None
  end.

(* NodeBuffer::for_each, NodeBuffer.cpp:135-141: the visited elements in order *)
Fixpoint nb_loop (n : nat) (b : bytes) : option (list nodeinfo) :=
  match n with
  | O => Some []
  | S n' =>
      match b with
      | [] => Some []                    (* pos < m_pos fails *)
      | _ => match unpack_node b with
             | None => None
             | Some (i, r) => option_map (cons i) (nb_loop n' r)
             end
      end
  end.
Definition nb_for_each (b : nbuf) : option (list nodeinfo) := nb_loop (nb_count b) (nb_data b).

(* ------------------------------------------------------------------------- *)
(* TraceBufferChunk, src/services/trace/TraceBufferChunk.{h,cpp} without the chain of
   further chunks (see TraceModel): m_size, the written part of m_data, m_nrec *)
Record chunk := mkchunk { ck_size : N; ck_data : bytes; ck_nrec : nat }.
Definition chunk_new (size : N) : chunk := mkchunk size [] 0.

(* Entry::MAX_PACKED_SIZE, Entry.h:38 *)
Definition MAX_PACKED : N := 30.

(* TraceBufferChunk::fits, TraceBufferChunk.cpp:92-101 *)
Definition chunk_fits (c : chunk) (rec : list entry) : bool :=
  N.of_nat (length (ck_data c)) + (10 + N.of_nat (length rec) * MAX_PACKED) <? ck_size c.

Fixpoint pack_all (rec : list entry) : option bytes :=
  match rec with
  | [] => Some []
  | e :: r => match entry_pack e, pack_all r with
              | Some a, Some b => Some (a ++ b)
              | _, _ => None
              end
  end.

(* TraceBufferChunk::save_snapshot, TraceBufferChunk.cpp:79-90.  None: null dereference
   or a write beyond m_size. *)
Definition chunk_save (c : chunk) (rec : list entry) : option chunk :=
  match rec with
  | [] => Some c
  | _ => match pack_all rec with
         | None => None
         | Some p =>
             let d := ck_data c ++ vlenc (N.of_nat (length rec)) ++ p in
             if N.of_nat (length d) <=? ck_size c
             then Some (mkchunk (ck_size c) d (S (ck_nrec c)))
             else None
         end
  end.

(* the decode loops of TraceBufferChunk::flush, TraceBufferChunk.cpp:51-65 *)
Fixpoint unpack_n (db : metadb) (n : nat) (b : bytes) : option (list entry * bytes) :=
  match n with
  | O => Some ([], b)
  | S n' => match entry_unpack db b with
            | None => None
            | Some (e, r) => match unpack_n db n' r with
                             | None => None
                             | Some (l, r') => Some (e :: l, r')
                             end
            end
  end.
Fixpoint flush_loop (db : metadb) (nrec : nat) (b : bytes) : option (list (list entry)) :=
  match nrec with
  | O => Some []
  | S k => match vldec b with
           | None => None
           | Some (n, r) =>
               match unpack_n db (N.to_nat n) r with
               | None => None
               | Some (l, r') => option_map (cons l) (flush_loop db k r')
               end
           end
  end.
Definition chunk_flush (db : metadb) (c : chunk) : option (list (list entry)) :=
  flush_loop db (ck_nrec c) (ck_data c).
