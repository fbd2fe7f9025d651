(* C52: lexicographic integers; C56: padded integers. *)
From Verif Require Import Util Lex_Model Lex_Spec Lex_Proofs.
Open Scope Z_scope.

(* For all integers between -10^10000 and 10^9999 the order of the strings is the order of the integers. *)
Theorem C52_order : forall n m, - 10 ^ (9999 + 1) < n < 10 ^ 9999 -> - 10 ^ (9999 + 1) < m < 10 ^ 9999 ->
  (n < m <-> str_lt (to_s_lex n) (to_s_lex m)).
Proof. exact lex_order. Qed.
Print Assumptions C52_order.

Example C52_order_example :
  to_s_lex (-10) = map Z.of_nat [45; 57; 57; 57; 56; 57; 48]%nat /\ to_s_lex (-9) = map Z.of_nat [45; 57; 57; 57; 57; 49]%nat /\
  to_s_lex 9 = map Z.of_nat [48; 48; 48; 49; 57]%nat /\ to_s_lex 10 = map Z.of_nat [48; 48; 48; 50; 49; 48]%nat.
Proof. repeat split; vm_compute; reflexivity. Qed.

Theorem C52_roundtrip : forall n, - 10 ^ (9999 + 1) < n < 10 ^ 9999 -> to_i_lex (to_s_lex n) = n.
Proof. exact lex_roundtrip. Qed.
Print Assumptions C52_roundtrip.

Example C52_roundtrip_example : map (fun n => to_i_lex (to_s_lex n)) [-1000; -999; -1; 0; 7; 123456789] = [-1000; -999; -1; 0; 7; 123456789].
Proof. vm_compute. reflexivity. Qed.

(* The bound is the right one: at 10^9999 the order breaks. *)
Theorem C52_bound_is_sharp : forall k, k = 9999 -> 10 ^ k - 1 < 10 ^ k /\ str_lt (to_s_lex (10 ^ k)) (to_s_lex (10 ^ k - 1)).
Proof. exact lex_order_beyond. Qed.
Print Assumptions C52_bound_is_sharp.

(* Padded non-negative integers of at most w digits sort in integer order and have width w ... *)
Theorem C56_pad_order : forall w n m, 1 <= w -> 0 <= n < m -> m < 10 ^ w -> str_lt (to_s_pad w n) (to_s_pad w m).
Proof. exact pad_lt. Qed.
Print Assumptions C56_pad_order.
Theorem C56_pad_width : forall w n, 1 <= w -> 0 <= n < 10 ^ w -> size (to_s_pad w n) = w.
Proof. exact pad_len. Qed.
Print Assumptions C56_pad_width.
(* ... but are padded with spaces instead of the documented zeros, whenever any padding is needed. *)
Theorem C56_zero_padding_refuted : forall w n, 2 <= w -> 0 <= n < 10 ^ (w - 1) -> ~ zero_padded (Z.to_nat w) n (to_s_pad w n).
Proof. exact pad_zero_refuted. Qed.
Print Assumptions C56_zero_padding_refuted.

Example C56_example : to_s_pad 5 123 = [32; 32; 49; 50; 51] /\ zero_padded 5 123 [48; 48; 49; 50; 51].
Proof. split; [vm_compute; reflexivity|]. split; [reflexivity|]. split; [|reflexivity]. unfold digit. repeat constructor; lia. Qed.
