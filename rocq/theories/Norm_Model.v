(* Model of the norm encoding in c/src/helper.c.  A C float is its 32-bit pattern (IEEE 754 single precision). *)
From Verif Require Import Util.
Open Scope Z_scope.

(* helper.c:14-26 float2int and int2float are the identity on patterns. *)

(* the C comparison f <= 0.0: false for NaN, true for +0, -0 and negative numbers *)
Definition f_le_zero (i : Z) : bool :=
  (i =? 0) || ((Z.land i 0x80000000 =? 0x80000000) && (Z.land i 0x7fffffff <=? 0x7f800000)).

(* helper.c:28-39 byte2float; similarity.c:118-121 and :145 look the same value up in a table *)
Definition byte2float (b : Z) : Z :=
  if b =? 0 then 0
  else
    let mantissa := Z.land b 0x07 in
    let exponent := Z.land (Z.shiftr b 3) 0x1f in
    Z.lor (Z.shiftl mantissa 21) (Z.shiftl (exponent + 48) 24).

(* helper.c:41-64 float2byte; the mask is 0xEf0000 as in the source *)
Definition float2byte (i : Z) : Z :=
  if f_le_zero i then 0
  else
    let mantissa := Z.shiftr (Z.land i 0xef0000) 21 in
    let exponent := Z.shiftr i 24 - 48 in
    let '(exponent, mantissa) := if exponent >? 0x1f then (0x1f, 0x07) else (exponent, mantissa) in
    let '(exponent, mantissa) := if exponent <? 0 then (0, 1) else (exponent, mantissa) in
    Z.land (Z.lor (Z.shiftl exponent 3) mantissa) 255.
