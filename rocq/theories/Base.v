(* Common definitions: bytes, 64-bit words, byte buffers.
   No function of /repo is modelled here; this file only fixes the machine
   conventions (x86-64, LP64, two's complement) that the models share. *)
From Coq Require Export List Arith NArith ZArith Lia Bool.
From Coq Require Export ZifyBool ZifyNat ZifyN.
Export ListNotations.

Global Arguments N.add : simpl never.
Global Arguments N.sub : simpl never.
Global Arguments N.mul : simpl never.
Global Arguments N.div : simpl never.
Global Arguments N.modulo : simpl never.
Global Arguments N.pow : simpl never.
Global Arguments N.shiftl : simpl never.
Global Arguments N.shiftr : simpl never.
Global Arguments N.land : simpl never.
Global Arguments N.lor : simpl never.
Global Arguments N.eqb : simpl never.
Global Arguments N.ltb : simpl never.
Global Arguments N.leb : simpl never.
Global Arguments Z.add : simpl never.
Global Arguments Z.sub : simpl never.
Global Arguments Z.mul : simpl never.
Global Arguments Z.pow : simpl never.
Global Arguments Z.modulo : simpl never.
Global Arguments Z.div : simpl never.

Open Scope N_scope.

(* A byte is an N below 256, a byte string a list of them. *)
Definition bytes := list N.
Definition byte_ok (b : N) : Prop := b < 256.
Definition bytes_ok (l : bytes) : Prop := Forall byte_ok l.

Definition W64 : N := 18446744073709551616.  (* 2^64 *)
Definition wrap64 (n : N) : N := n mod W64.
Definition u64_ok (n : N) : Prop := n < W64.

Lemma W64_pow : W64 = 2 ^ 64.
Proof. reflexivity. Qed.

Lemma wrap64_id n : u64_ok n -> wrap64 n = n.
Proof. unfold wrap64, u64_ok. intro H. apply N.mod_small; exact H. Qed.

Lemma wrap64_ok n : u64_ok (wrap64 n).
Proof. unfold wrap64, u64_ok. apply N.mod_lt. discriminate. Qed.

(* CALI_INV_ID, include/caliper/common/cali_types.h: 0xFFFFFFFFFFFFFFFF *)
Definition INV_ID : N := 18446744073709551615.

Lemma firstn_app_exact {A} (l r : list A) : firstn (length l) (l ++ r) = l.
Proof. rewrite firstn_app, Nat.sub_diag, firstn_all. simpl. apply app_nil_r. Qed.

Lemma skipn_app_exact {A} (l r : list A) : skipn (length l) (l ++ r) = r.
Proof. rewrite skipn_app, Nat.sub_diag, skipn_all. reflexivity. Qed.
