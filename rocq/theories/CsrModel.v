(* Model of src/common/CompressedSnapshotRecord.cpp and src/common/SnapshotBuffer.cpp.
   Buffers are byte lists of fixed length (m_buffer_len); positions are nat.  An access
   outside of the buffer is None. *)
From Verif Require Import Base VlencModel VariantModel.

(* memcpy(buf + off, src, |src|) *)
Definition blit (buf : bytes) (off : nat) (src : bytes) : option bytes :=
  if (off + length src <=? length buf)%nat
  then Some (firstn off buf ++ src ++ skipn (off + length src) buf) else None.
(* the bytes [off, off+len) *)
Definition slice (buf : bytes) (off len : nat) : option bytes :=
  if (off + len <=? length buf)%nat then Some (firstn len (skipn off buf)) else None.

(* save_memmove, CompressedSnapshotRecord.cpp:23-38, within one buffer.  Structural on fuel;
   the caller supplies fuel len, and every iteration moves at least one byte. *)
Fixpoint memmove_loop (fuel : nat) (buf : bytes) (dst src len : nat) : option bytes :=
  match len with
  | O => Some buf
  | _ => match fuel with
         | O => None
         | S f =>
             let blk := Nat.min len 64 in
             let len' := (len - blk)%nat in
             match slice buf (src + len') blk with
             | None => None
             | Some tmp => match blit buf (dst + len') tmp with
                           | None => None
                           | Some buf' => memmove_loop f buf' dst src len'
                           end
             end
         end
  end.
Definition save_memmove (buf : bytes) (dst src len : nat) : option bytes :=
  if (src =? dst)%nat then Some buf else memmove_loop len buf dst src len.

(* CompressedSnapshotRecord members, CompressedSnapshotRecord.h:94-108 *)
Record csr := mkcsr {
  cs_buf : bytes; cs_nn : nat; cs_ni : nat; cs_ipos : nat; cs_ilen : nat;
  cs_needed : nat; cs_skipped : nat }.

(* constructor, CompressedSnapshotRecord.cpp:145-156: zero-filled buffer of length len *)
Definition csr_new (len : nat) : csr := mkcsr (repeat 0 len) 0 0 1 1 2 0.

Definition BLK : nat := 4.          (* m_blocksize *)

(* m_buffer[i] += blk (unsigned char arithmetic) *)
Definition bump (buf : bytes) (i blk : nat) : option bytes :=
  match nth_error buf i with
  | None => None
  | Some b => blit buf i [(b + N.of_nat blk) mod 256]
  end.

Definition enc_nodes (l : list N) : bytes := flat_map vlenc l.
Definition enc_imm (l : list (N * cvar)) : bytes :=
  flat_map (fun p => vlenc (fst p) ++ var_pack (snd p)) l.

(* one block of append(n, Node*[]), CompressedSnapshotRecord.cpp:176-203 *)
Definition put_nodes (c : csr) (blk : list N) : option (csr * nat) :=
  let tmp := enc_nodes blk in
  let len := length tmp in
  let nb := length blk in
  if ((cs_nn c + nb <? 128) && (cs_ipos c + cs_ilen c + len <=? length (cs_buf c)))%nat then
    match save_memmove (cs_buf c) (cs_ipos c + len) (cs_ipos c) (cs_ilen c) with None => None | Some b1 =>
    match blit b1 1 tmp with None => None | Some b2 =>
    match bump b2 0 nb with None => None | Some b3 =>
      Some (mkcsr b3 (cs_nn c + nb) (cs_ni c) (cs_ipos c + len) (cs_ilen c)
                  (cs_needed c + len) (cs_skipped c), O)
    end end end
  else Some (mkcsr (cs_buf c) (cs_nn c) (cs_ni c) (cs_ipos c) (cs_ilen c)
                   (cs_needed c + len) (cs_skipped c), nb).

(* the block loop, lines 171-207; fuel = number of ids suffices *)
Fixpoint nodes_loop (fuel : nat) (c : csr) (l : list N) : option (csr * nat) :=
  match l, fuel with
  | [], _ => Some (c, O)
  | _, O => None
  | _, S f => match put_nodes c (firstn BLK l) with
              | None => None
              | Some (c1, s1) => match nodes_loop f c1 (skipn BLK l) with
                                 | None => None
                                 | Some (c2, s2) => Some (c2, s1 + s2)%nat
                                 end
              end
  end.
Definition add_skipped (r : option (csr * nat)) : option (csr * nat) :=
  match r with
  | None => None
  | Some (c, s) => Some (mkcsr (cs_buf c) (cs_nn c) (cs_ni c) (cs_ipos c) (cs_ilen c)
                               (cs_needed c) (cs_skipped c + s), s)
  end.
(* CompressedSnapshotRecord::append(n, node_vec): new state and the return value *)
Definition append_nodes (c : csr) (l : list N) : option (csr * nat) := add_skipped (nodes_loop (length l) c l).

(* one block of append(n, attr_vec, data_vec), lines 215-243 *)
Definition put_imm (c : csr) (blk : list (N * cvar)) : option (csr * nat) :=
  let tmp := enc_imm blk in
  let len := length tmp in
  let nb := length blk in
  if ((cs_ni c + nb <? 128) && (cs_ipos c + cs_ilen c + len <=? length (cs_buf c)))%nat then
    match blit (cs_buf c) (cs_ipos c + cs_ilen c) tmp with None => None | Some b1 =>
    match bump b1 (cs_ipos c) nb with None => None | Some b2 =>
      Some (mkcsr b2 (cs_nn c) (cs_ni c + nb) (cs_ipos c) (cs_ilen c + len)
                  (cs_needed c + len) (cs_skipped c), O)
    end end
  else Some (mkcsr (cs_buf c) (cs_nn c) (cs_ni c) (cs_ipos c) (cs_ilen c)
                   (cs_needed c + len) (cs_skipped c), nb).
Fixpoint imm_loop (fuel : nat) (c : csr) (l : list (N * cvar)) : option (csr * nat) :=
  match l, fuel with
  | [], _ => Some (c, O)
  | _, O => None
  | _, S f => match put_imm c (firstn BLK l) with
              | None => None
              | Some (c1, s1) => match imm_loop f c1 (skipn BLK l) with
                                 | None => None
                                 | Some (c2, s2) => Some (c2, s1 + s2)%nat
                                 end
              end
  end.
Definition append_imm (c : csr) (l : list (N * cvar)) : option (csr * nat) := add_skipped (imm_loop (length l) c l).

(* a snapshot entry as append(n, Entry[]) sees it: reference (node id), immediate, or empty *)
Inductive sent := SRef (id : N) | SImm (attr : N) (v : cvar) | SNone.

(* append(n, Entry entrylist[]), lines 251-287: nodes/attr+data staging arrays of size 4 *)
Fixpoint entries_loop (c : csr) (nodes : list N) (imms : list (N * cvar)) (l : list sent) : option (csr * nat) :=
  match l with
  | [] => match append_nodes c nodes with None => None | Some (c1, s1) =>
          match append_imm c1 imms with None => None | Some (c2, s2) => Some (c2, s1 + s2)%nat end end
  | SRef id :: r =>
      let nodes' := nodes ++ [id] in
      if (length nodes' =? BLK)%nat then
        match append_nodes c nodes' with None => None | Some (c1, s1) =>
        match entries_loop c1 [] imms r with None => None | Some (c2, s2) => Some (c2, s1 + s2)%nat end end
      else entries_loop c nodes' imms r
  | SImm a v :: r =>
      let imms' := imms ++ [(a, v)] in
      if (length imms' =? BLK)%nat then
        match append_imm c imms' with None => None | Some (c1, s1) =>
        match entries_loop c1 nodes [] r with None => None | Some (c2, s2) => Some (c2, s1 + s2)%nat end end
      else entries_loop c nodes imms' r
  | SNone :: r => entries_loop c nodes imms r
  end.
Definition append_entries (c : csr) (l : list sent) : option (csr * nat) := entries_loop c [] [] l.

(* size(), CompressedSnapshotRecord.h:124 *)
Definition csr_size (c : csr) : nat := Nat.min (cs_ipos c + cs_ilen c) (length (cs_buf c)).

(* Decoding: view constructor / unpack_nodes / unpack_immediate / to_entrylist,
   CompressedSnapshotRecord.cpp:45-65,92-139: number of nodes, node ids, number of
   immediates, (attribute, value) pairs; the rest of the buffer follows the record. *)
Fixpoint dec_nodes (n : nat) (b : bytes) : option (list N * bytes) :=
  match n with
  | O => Some ([], b)
  | S k => match vldec b with None => None | Some (id, r) =>
           match dec_nodes k r with None => None | Some (l, r') => Some (id :: l, r') end end
  end.
Fixpoint dec_imm (n : nat) (b : bytes) : option (list (N * cvar) * bytes) :=
  match n with
  | O => Some ([], b)
  | S k => match vldec b with None => None | Some (a, r) =>
           match var_unpack r with None => None | Some (v, _, r1) =>
           match dec_imm k r1 with None => None | Some (l, r2) => Some ((a, v) :: l, r2) end end end
  end.
Definition csr_decode (b : bytes) : option (list N * list (N * cvar) * bytes) :=
  match b with
  | [] => None
  | nn :: b1 =>
      match dec_nodes (N.to_nat nn) b1 with
      | None => None
      | Some (ids, []) => None
      | Some (ids, ni :: b2) =>
          match dec_imm (N.to_nat ni) b2 with
          | None => None
          | Some (ims, r) => Some (ids, ims, r)
          end
      end
  end.

(* SnapshotBuffer, SnapshotBuffer.cpp:15-68: m_count, the written part of m_buffer, m_reserved_len *)
Record sbuf := mksb { sb_count : nat; sb_data : bytes; sb_reserved : nat }.
Definition sb_new (size : nat) : sbuf := mksb 0 [] size.
Definition sb_append (b : sbuf) (c : csr) : option sbuf :=
  match slice (cs_buf c) 0 (csr_size c) with
  | None => None
  | Some d =>
      let need := (length (sb_data b) + length d)%nat in
      let res := if (need <=? sb_reserved b)%nat then sb_reserved b else (4096 + need * 2)%nat in
      if (need <=? res)%nat then Some (mksb (S (sb_count b)) (sb_data b ++ d) res) else None
  end.
Fixpoint sb_loop (n : nat) (b : bytes) : option (list (list N * list (N * cvar))) :=
  match n, b with
  | O, _ => Some []
  | _, [] => Some []
  | S k, _ => match csr_decode b with
              | None => None
              | Some (ids, ims, r) => option_map (cons (ids, ims)) (sb_loop k r)
              end
  end.
Definition sb_for_each (b : sbuf) := sb_loop (sb_count b) (sb_data b).
