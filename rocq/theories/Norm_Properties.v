(* C15: norms. *)
From Verif Require Import Util Norm_Model Norm_Spec Norm_Proofs.
Open Scope Z_scope.

(* Reading a stored norm and storing it again changes nothing (all 256 codes). *)
Theorem C15_stored_norms_are_stable : forall b, 0 <= b < 256 -> float2byte (byte2float b) = b.
Proof. exact norm_stable. Qed.
Print Assumptions C15_stored_norms_are_stable.
(* Distinct codes denote distinct numbers, in order. *)
Theorem C15_codes_increase : forall b c, 0 <= b -> b < c -> c < 256 -> fval (byte2float b) < fval (byte2float c).
Proof. exact norm_increasing. Qed.
Print Assumptions C15_codes_increase.
(* A finite number not below the first code gets the greatest code not exceeding it. *)
Theorem C15_encoding_truncates : forall i, f_finite i -> fval (byte2float 1) <= fval i ->
  fval (byte2float (float2byte i)) <= fval i /\ (float2byte i = 255 \/ fval i < fval (byte2float (float2byte i + 1))) /\ 1 <= float2byte i <= 255.
Proof. exact norm_truncates. Qed.
Print Assumptions C15_encoding_truncates.
(* Numbers below the first code: zero and negatives give 0, below 2^-31 gives 1, from 2^-31 on 0 again. *)
Theorem C15_tiny_numbers : forall i, f_finite i -> fval i < fval (byte2float 1) ->
  float2byte i = if fval i <=? 0 then 0 else if fval i <? two_to (-31) then 1 else 0.
Proof. exact norm_tiny. Qed.
Print Assumptions C15_tiny_numbers.
(* Infinity and NaN give the greatest code. *)
Theorem C15_infinity : forall i, 0 <= i < 2 ^ 32 -> i >= 0x7f800000 -> i < 2 ^ 31 \/ 0xff800000 < i -> float2byte i = 255.
Proof. exact norm_not_finite. Qed.
Print Assumptions C15_infinity.
(* Encoding is monotone unless the larger number lies in [2^-31, 1.25 * 2^-31). *)
Theorem C15_monotone : forall i j, f_finite i -> f_finite j -> fval i <= fval j -> ~ (two_to (-31) <= fval j < fval (byte2float 1)) ->
  float2byte i <= float2byte j.
Proof. exact norm_monotone. Qed.
Print Assumptions C15_monotone.
(* In that interval it is not: 2^-31 is encoded as 0, the next smaller float as 1. *)
Theorem C15_monotone_refuted : exists i j, f_finite i /\ f_finite j /\ 0 < fval i /\ fval i < fval j /\ float2byte j < float2byte i.
Proof. exists 0x2fffffff, 0x30000000. vm_compute. intuition congruence. Qed.
Print Assumptions C15_monotone_refuted.

(* 1.0 is 0x3f800000 and is code 124; 0.3 is truncated to 0.25 (0x3e800000, code 116) *)
Example C15_example : map float2byte [0x3f800000; 0x3e99999a; 0xbf800000; 0; 0x7f7fffff] = [124; 116; 0; 0; 255] /\
  byte2float 124 = 0x3f800000 /\ byte2float 116 = 0x3e800000 /\ fval 0x3f800000 = two_to 0 /\ f_finite 0x3e99999a.
Proof. vm_compute. intuition congruence. Qed.
