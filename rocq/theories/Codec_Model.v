(* Model of the integer and string encodings of c/src/store.c on flat byte lists.
   A byte is a Z in [0,256).  The effect of the 1024 byte buffers is modelled separately in
   Stream_Model.v; here a writer returns the bytes it emits and a reader consumes a list. *)
From Verif Require Import Util.
Open Scope Z_scope.

(* The conversion (uchar)x of C. *)
Definition uchar (x : Z) : Z := x mod 256.
(* Conversion of an unsigned w-bit pattern to the signed type of the same width. *)
Definition to_signed (w x : Z) : Z := if x <? 2 ^ (w - 1) then x else x - 2 ^ w.

(* store.c:545-561 os_write_vint, 564-580 os_write_voff_t, 583-599 os_write_vll: the three
   functions have the same loop
       while (num > 127) { put((num & 0x7f) | 0x80); num >>= 7; } put((uchar)num);
   and differ only in the C type of num (unsigned int, off_t, u64).  [fuel] bounds the number
   of iterations; [None] is "loop not finished". *)
Fixpoint enc_v (fuel : nat) (num : Z) : option (list Z) :=
  match fuel with
  | O => None
  | S fuel' =>
      if num >? 127
      then do r <- enc_v fuel' (Z.shiftr num 7);
           Some (uchar (Z.lor (Z.land num 127) 128) :: r)
      else Some [uchar num]
  end.

Definition VINT_MAX_LEN : nat := 10.   (* store.h: FRT_VINT_MAX_LEN *)
Definition enc_vint (num : Z) : option (list Z) := enc_v VINT_MAX_LEN num.

(* Outcome of a reader: a value and the remaining bytes, end of file (EOF_ERROR raised by
   is_refill, store.c:215-218), or undefined behaviour (shift by at least the type's width). *)
Inductive rd (A : Type) : Type :=
| ROk : A -> list Z -> rd A
| REof : rd A
| RUB : rd A.
Arguments ROk {A}. Arguments REof {A}. Arguments RUB {A}.

(* store.c:357-361 (is_read_vint), 387-391 (is_read_voff_t), 417-421 (is_read_vll):
       while ((b & 0x80) != 0) { b = read; res |= (b & 0x7F) << shift; shift += 7; }
   [w] is the width of res (32 for unsigned int, 64 for off_t and u64).  When the shift has reached
   the width the encoding is malformed whatever follows, so this is reported first. *)
Fixpoint dec_loop (w res shift : Z) (bs : list Z) : rd Z :=
  match bs with
  | [] => if shift >=? w then RUB else REof
  | b :: t =>
      if shift >=? w then RUB
      else
        let res' := Z.lor res (Z.shiftl (Z.land b 127) shift mod 2 ^ w) in
        if Z.land b 128 =? 0 then ROk res' t
        else dec_loop w res' (shift + 7) t
  end.

(* store.c:348-375 / 378-405 / 408-435 *)
Definition dec_v (w : Z) (bs : list Z) : rd Z :=
  match bs with
  | [] => REof
  | b :: t =>
      let res := Z.land b 127 in
      if Z.land b 128 =? 0 then ROk res t else dec_loop w res 7 t
  end.

(* store.c:437-443 is_skip_vints *)
Fixpoint skip_one (bs : list Z) : rd unit :=
  match bs with
  | [] => REof
  | b :: t => if Z.land b 128 =? 0 then ROk tt t else skip_one t
  end.
Fixpoint skip_vints (cnt : nat) (bs : list Z) : rd unit :=
  match cnt with
  | O => ROk tt bs
  | S c => match skip_one bs with ROk _ t => skip_vints c t | REof => REof | RUB => RUB end
  end.

(* store.c:504-510 os_write_i32, 524-530 os_write_u32 *)
Definition enc_32 (num : Z) : list Z :=
  [uchar (Z.land (Z.shiftr num 24) 255); uchar (Z.land (Z.shiftr num 16) 255);
   uchar (Z.land (Z.shiftr num 8) 255); uchar (Z.land num 255)].
(* store.c:512-522 os_write_i64, 532-542 os_write_u64 *)
Definition enc_64 (num : Z) : list Z :=
  [uchar (Z.land (Z.shiftr num 56) 255); uchar (Z.land (Z.shiftr num 48) 255);
   uchar (Z.land (Z.shiftr num 40) 255); uchar (Z.land (Z.shiftr num 32) 255);
   uchar (Z.land (Z.shiftr num 24) 255); uchar (Z.land (Z.shiftr num 16) 255);
   uchar (Z.land (Z.shiftr num 8) 255); uchar (Z.land num 255)].

(* store.c:327-333 is_read_u32.  The C operands of | are unsequenced; like every compiler the
   project is built with we evaluate them left to right. *)
Definition dec_u32 (bs : list Z) : rd Z :=
  match bs with
  | a :: b :: c :: d :: t =>
      ROk (Z.lor (Z.lor (Z.lor (Z.shiftl a 24) (Z.shiftl b 16)) (Z.shiftl c 8)) d) t
  | _ => REof
  end.
(* store.c:335-345 is_read_u64 *)
Definition dec_u64 (bs : list Z) : rd Z :=
  match bs with
  | a :: b :: c :: d :: e :: f :: g :: h :: t =>
      ROk (Z.lor (Z.lor (Z.lor (Z.lor (Z.lor (Z.lor (Z.lor
            (Z.shiftl a 56) (Z.shiftl b 48)) (Z.shiftl c 40)) (Z.shiftl d 32))
            (Z.shiftl e 24)) (Z.shiftl f 16)) (Z.shiftl g 8)) h) t
  | _ => REof
  end.
Definition rd_map {A B} (f : A -> B) (r : rd A) : rd B :=
  match r with ROk a t => ROk (f a) t | REof => REof | RUB => RUB end.
(* store.c:307-313 is_read_i32, 315-325 is_read_i64: same bits, signed result *)
Definition dec_i32 (bs : list Z) : rd Z := rd_map (to_signed 32) (dec_u32 bs).
Definition dec_i64 (bs : list Z) : rd Z := rd_map (to_signed 64) (dec_u64 bs).

(* store.c:601-605 os_write_string_len: length as vint (passed as unsigned int), then bytes *)
Definition enc_str (s : list Z) : option (list Z) :=
  do l <- enc_vint (Z.of_nat (length s)); Some (l ++ s).
(* store.c:460-478 is_read_string; a length of 2^31 or more converts to a negative int whose
   use as an allocation size is undefined *)
Definition dec_str (bs : list Z) : rd (list Z) :=
  match dec_v 32 bs with
  | REof => REof
  | RUB => RUB
  | ROk n t =>
      if 2 ^ 31 <=? n then RUB
      else if Nat.ltb (length t) (Z.to_nat n) then REof
      else ROk (firstn (Z.to_nat n) t) (skipn (Z.to_nat n) t)
  end.
