(* C01, C02: encodings of c/src/store.c. *)
From Verif Require Import Util Codec_Model Codec_Spec Codec_Proofs.
Open Scope Z_scope.

(* os_write_vint / is_read_vint on every unsigned 32 bit value, whatever follows *)
Theorem C01_vint_roundtrip : roundtrips u32 enc_vint (dec_v 32).
Proof. exact vint_roundtrips. Qed.
Print Assumptions C01_vint_roundtrip.
Example C01_vint_example : u32 300 /\ enc_vint 300 = Some [172; 2] /\
  dec_v 32 [172; 2; 77] = ROk 300 [77].
Proof. vm_compute. intuition congruence. Qed.

(* os_write_vll / is_read_vll on every unsigned 64 bit value *)
Theorem C01_vll_roundtrip : roundtrips u64 enc_vint (dec_v 64).
Proof. exact vll_roundtrips. Qed.
Print Assumptions C01_vll_roundtrip.
Example C01_vll_example : u64 (2 ^ 64 - 1) /\
  enc_vint (2 ^ 64 - 1) = Some [255; 255; 255; 255; 255; 255; 255; 255; 255; 1].
Proof. vm_compute. intuition congruence. Qed.

(* os_write_voff_t / is_read_voff_t on every non-negative file offset *)
Theorem C01_voff_roundtrip : roundtrips off_nonneg enc_vint (dec_v 64).
Proof. exact voff_roundtrips. Qed.
Print Assumptions C01_voff_roundtrip.
Example C01_voff_example : off_nonneg 5000000000 /\
  exists bs, enc_vint 5000000000 = Some bs /\ dec_v 64 (bs ++ [1]) = ROk 5000000000 [1].
Proof. split; [vm_compute; intuition congruence|]. eexists. split; vm_compute; reflexivity. Qed.

(* sequences of values of any self-delimiting encoding *)
Theorem C01_sequences : forall A (dom : A -> Prop) enc dec, roundtrips dom enc dec ->
  forall vs, Forall dom vs -> exists bs, write_all enc vs = Some bs /\
    forall rest, read_n dec (length vs) (bs ++ rest) = ROk vs rest.
Proof. exact @read_n_write_all. Qed.
Print Assumptions C01_sequences.
Example C01_sequences_example : Forall u32 [0; 127; 128; 4294967295] /\
  write_all enc_vint [0; 127; 128; 4294967295] = Some [0; 127; 128; 1; 255; 255; 255; 255; 15].
Proof. split; [repeat constructor; vm_compute; congruence | reflexivity]. Qed.

(* a reader on a truncated encoding reports end of file, never a value *)
Theorem C01_vint_truncation : detects_truncation u32 enc_vint (dec_v 32).
Proof. exact vint_trunc. Qed.
Print Assumptions C01_vint_truncation.
Theorem C01_vll_truncation : detects_truncation u64 enc_vint (dec_v 64).
Proof. exact vll_trunc. Qed.
Print Assumptions C01_vll_truncation.
Example C01_truncation_example : enc_vint 300 = Some [172; 2] /\ (1 < length [172; 2])%nat /\
  dec_v 32 (firstn 1 [172; 2]) = REof.
Proof. vm_compute. intuition lia. Qed.

(* is_skip_vints skips exactly the written values *)
Theorem C01_skip_vints : forall vs bs rest,
  write_all enc_vint vs = Some bs -> Forall (fun v => 0 <= v) vs ->
  skip_vints (length vs) (bs ++ rest) = ROk tt rest.
Proof. exact skip_vints_enc. Qed.
Print Assumptions C01_skip_vints.
Example C01_skip_vints_example : write_all enc_vint [300; 5] = Some [172; 2; 5] /\
  skip_vints 2 [172; 2; 5; 9] = ROk tt [9].
Proof. split; reflexivity. Qed.

(* os_write_voff_t accepts negative offsets but does not round-trip: -1 is written as the single
   byte 0xFF, on which the reader runs into the following bytes. *)
Theorem C01_voff_negative_refuted : exists n bs, - 2 ^ 63 <= n < 0 /\ enc_vint n = Some bs /\
  dec_v 64 (bs ++ [0]) <> ROk n [0].
Proof. exists (-1), [255]. vm_compute. intuition congruence. Qed.
Print Assumptions C01_voff_negative_refuted.

Theorem C02_i32_roundtrip : roundtrips i32 (fun v => Some (enc_32 v)) dec_i32.
Proof. exact i32_roundtrips. Qed.
Print Assumptions C02_i32_roundtrip.
Theorem C02_u32_roundtrip : roundtrips u32 (fun v => Some (enc_32 v)) dec_u32.
Proof. exact u32_roundtrips. Qed.
Print Assumptions C02_u32_roundtrip.
Theorem C02_i64_roundtrip : roundtrips i64 (fun v => Some (enc_64 v)) dec_i64.
Proof. exact i64_roundtrips. Qed.
Print Assumptions C02_i64_roundtrip.
Theorem C02_u64_roundtrip : roundtrips u64 (fun v => Some (enc_64 v)) dec_u64.
Proof. exact u64_roundtrips. Qed.
Print Assumptions C02_u64_roundtrip.
Example C02_int_example : i32 (-2) /\ enc_32 (-2) = [255; 255; 255; 254] /\
  dec_i32 [255; 255; 255; 254; 3] = ROk (-2) [3] /\ dec_u32 [255; 255; 255; 254; 3] = ROk 4294967294 [3].
Proof. vm_compute. intuition congruence. Qed.

Theorem C02_string_roundtrip : roundtrips byte_string enc_str dec_str.
Proof. exact str_roundtrips. Qed.
Print Assumptions C02_string_roundtrip.
Theorem C02_string_truncation : detects_truncation byte_string enc_str dec_str.
Proof. exact str_trunc. Qed.
Print Assumptions C02_string_truncation.
Example C02_string_example : byte_string [104; 105] /\ enc_str [104; 105] = Some [2; 104; 105] /\
  dec_str [2; 104; 105; 7] = ROk [104; 105] [7].
Proof. split; [split; [repeat constructor; vm_compute; congruence | reflexivity] | split; reflexivity]. Qed.
