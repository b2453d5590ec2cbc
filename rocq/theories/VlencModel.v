(* Model of src/common/util/vlenc.h *)
From Verif Require Import Base.

(* vlenc_u64, src/common/util/vlenc.h:81-95.  The C loop
     while (val > 0x7F) { *buf++ = (val & 0x7F) | 0x80; val >>= 7; }  *buf++ = val;
   is structural recursion on [fuel]; [vlenc] supplies one unit of fuel per bit of
   the value plus one, which the loop never exhausts (every iteration drops 7
   bits), so no out-of-fuel result is observable.  The returned byte count is the
   length of the list. *)
Fixpoint vlenc_loop (fuel : nat) (v : N) : bytes :=
  match fuel with
  | O => [v mod 256]
  | S f => if 127 <? v
           then N.lor (N.land v 127) 128 :: vlenc_loop f (N.shiftr v 7)
           else [v mod 256]        (* *buf++ = val : conversion to unsigned char *)
  end.
Definition vlenc (v : N) : bytes := vlenc_loop (N.to_nat (N.size v)) v.

(* vldec_u64, src/common/util/vlenc.h:107-122.  [p] counts the loop iterations done,
   [n] = 9 - p.  Reading past the end of the buffer (undefined behaviour in C) is
   None.  Shifts are 64-bit: bits shifted out are lost. *)
Fixpoint vldec_loop (n : nat) (p : N) (val : N) (buf : bytes) : option (N * bytes) :=
  match buf with
  | [] => None
  | b :: r =>
      let val' := N.lor val (wrap64 (N.shiftl (N.land b 127) (7 * p))) in
      match n with
      | O => Some (val', r)                                 (* p == 9: last byte *)
      | S n' => if N.land b 128 =? 0 then Some (val', r)
                else vldec_loop n' (p + 1) val' r
      end
  end.
(* The result is the value and the rest of the buffer; *inc grows by the number of
   bytes consumed, i.e. length buf - length rest. *)
Definition vldec (buf : bytes) : option (N * bytes) := vldec_loop 9 0 0 buf.
