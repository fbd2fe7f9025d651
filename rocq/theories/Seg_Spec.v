(* Names of the files of a segment, and the values a commit descriptor can hold. *)
From Coq Require Import String.
From Verif Require Import Util Codec_Spec Seg_Model.
Open Scope Z_scope.

(* The files belonging to a segment: <seg>.<ext>, <seg>_<gen>.<ext>, <seg>_<gen>.f<num> and <seg>_<gen>.s<num> *)
Inductive file_kind := Plain (ext : list Z) | Generation (ext : list Z) (gen : Z) | NormFile (separate : bool) (gen num : Z).
Definition lower (c : Z) : Prop := 97 <= c <= 122.
Definition kind_ok (k : file_kind) : Prop :=
  match k with
  | Plain ext => Forall lower ext
  | Generation ext gen => Forall lower ext /\ 0 <= gen < 2 ^ 63
  | NormFile _ gen num => 0 <= gen < 2 ^ 63 /\ 0 <= num < 2 ^ 31
  end.
Definition file_name (counter : Z) (k : file_kind) : option (list Z) :=
  do seg <- new_segment counter;
  match k with
  | Plain ext => Some (seg ++ [DOT] ++ ext)
  | Generation ext gen => match fn_for_generation seg ext gen with Some r => r | None => None end
  | NormFile sep gen num => fn_for_gen_field seg (if sep then str "s" else str "f") gen num
  end.

(* Values which fit the C types of the descriptor. *)
Definition fi_ok (f : field_info) : Prop := byte_string (fi_name f) /\ u32 (fi_boost f) /\ u32 (fi_bits f).
Definition fis_ok (f : field_infos) : Prop :=
  u32 (fis_store f) /\ u32 (fis_index f) /\ u32 (fis_tv f) /\
  (fis_index f = 0 -> fis_tv f = 0) /\ (* fi_check_params *)
  Z.of_nat (length (fis_fields f)) < 2 ^ 31 /\ Forall fi_ok (fis_fields f) /\ NoDup (map fi_name (fis_fields f)).
Definition si_ok (s : seg_info) : Prop :=
  byte_string (si_name s) /\ i32 (si_doc_cnt s) /\ i32 (si_del_gen s) /\
  Z.of_nat (length (si_norm_gens s)) < 2 ^ 31 /\ Forall i32 (si_norm_gens s).
Definition sis_ok (s : seg_infos) : Prop :=
  sis_format s = 0 /\ u64 (sis_version s) /\ u64 (sis_counter s) /\
  Z.of_nat (length (sis_segs s)) <= 2 ^ 30 /\ Forall si_ok (sis_segs s) /\ fis_ok (sis_fis s).

(* The first byte of the field definitions and the end of their three leading numbers. *)
Definition fis_window (s : seg_infos) : option (nat * nat) :=
  do d <- enc_int (Z.of_nat (length (sis_segs s)));
  do e <- enc_list enc_si (sis_segs s);
  do x <- enc_int (fis_store (sis_fis s));
  do y <- enc_int (fis_index (sis_fis s));
  do z <- enc_int (fis_tv (sis_fis s));
  let lo := (20 + length d + length e)%nat in
  Some (lo, (lo + length x + length y + length z)%nat).
