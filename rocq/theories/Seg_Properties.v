(* C25: file names; C26: the commit descriptor. *)
From Coq Require Import String.
From Verif Require Import Util Codec_Model Codec_Spec Seg_Model Seg_Spec Seg_Proofs SegCodec_Proofs.
Open Scope Z_scope.

(* Parsing a printed number returns it, for every buffer of at least 14 cells (the code uses 99 and 100). *)
Theorem C25_number_roundtrip : forall size u, (14 <= size)%nat -> 0 <= u < 2 ^ 64 ->
  exists s, u64_to_str36 size u = Some s /\ str36_to_u64 s = u.
Proof. exact base36_roundtrip. Qed.
Print Assumptions C25_number_roundtrip.
Example C25_number_roundtrip_ex : u64_to_str36 100 (2 ^ 64 - 1) = Some (str "3w5e11264sgsf") /\ str36_to_u64 (str "3w5e11264sgsf") = 2 ^ 64 - 1.
Proof. vm_compute. auto. Qed.
(* The name of a file of a segment determines the segment, the kind of file, its generation and its field. *)
Theorem C25_names_injective : forall c c' k k', 0 <= c < 2 ^ 64 -> 0 <= c' < 2 ^ 64 -> kind_ok k -> kind_ok k' ->
  file_name c k = file_name c' k' -> c = c' /\ k = k'.
Proof. exact names_injective. Qed.
Print Assumptions C25_names_injective.
Example C25_names_injective_ex : file_name 37 (Generation (str "del") 36) = Some (str "_11_10.del") /\
  file_name 37 (NormFile true 36 12) = Some (str "_11_10.s12") /\ file_name 37 (NormFile false 361 2) = Some (str "_11_a1.f2").
Proof. vm_compute. auto. Qed.
(* Different generations have different descriptor files. *)
Theorem C25_descriptor_names_injective : forall g h fn, 0 <= g < 2 ^ 63 -> 0 <= h < 2 ^ 63 ->
  segfn_for_generation g = Some fn -> segfn_for_generation h = Some fn -> g = h.
Proof. exact segfn_inj. Qed.
Print Assumptions C25_descriptor_names_injective.
Example C25_descriptor_names_injective_ex : segfn_for_generation 1295 = Some (str "segments_zz") /\ segfn_for_generation 1296 = Some (str "segments_100").
Proof. vm_compute. auto. Qed.
(* Listing the directory recognises the generation of a descriptor file. *)
Theorem C25_generation_is_recognised : forall g fn max, 0 <= g < 2 ^ 63 -> segfn_for_generation g = Some fn -> which_gen max fn = Z.max g max.
Proof. exact which_gen_segfn. Qed.
Print Assumptions C25_generation_is_recognised.
Example C25_generation_is_recognised_ex : current_generation [str "_0.cfs"; str "segments_zz"; str "segments"; str "segments_100"; str "segments_9"] = 1296.
Proof. vm_compute. auto. Qed.

(* Reading a written descriptor returns it and leaves exactly what follows it. *)
Theorem C26_descriptor_roundtrip : forall s, sis_ok s -> exists bs, enc_sis s = Some bs /\ forall rest, dec_sis (bs ++ rest) = POk s rest.
Proof. exact descriptor_roundtrip. Qed.
Print Assumptions C26_descriptor_roundtrip.
Definition ex_sis : seg_infos := mkSis 0 7 38
  [mkSi (str "_0") 200 (-1) [0; -1; 3] true; mkSi (str "_11") 5 2 [] false]
  (mkFis 1 2 0 [mkFi (str "title") 0x3f800000 5; mkFi (str "body") 0x40000000 300]).
Example C26_descriptor_roundtrip_ex : sis_ok ex_sis /\
  match enc_sis ex_sis with Some bs => dec_sis (bs ++ [9; 9]) = POk ex_sis [9; 9] | None => False end.
Proof.
  split; [|vm_compute; reflexivity].
  unfold sis_ok, fis_ok, si_ok, fi_ok, byte_string, u32, u64, i32. cbn.
  repeat match goal with
         | |- _ /\ _ => split | |- Forall _ _ => constructor | |- NoDup _ => constructor
         | |- ~ _ => cbn; intros H; repeat (destruct H as [H|H]; [discriminate|]); contradiction
         | |- _ => progress unfold is_byte; cbn; lia | |- _ => cbn; lia
         end.
Qed.
(* The version alone is read correctly too, and a file ending before it is noticed. *)
Theorem C26_version_is_read : forall s, sis_ok s -> exists bs, enc_sis s = Some bs /\
  (forall rest, exists t, dec_version (bs ++ rest) = POk (sis_version s) t) /\ forall n, (n < 12)%nat -> dec_version (firstn n bs) = PEof.
Proof. exact version_read. Qed.
Print Assumptions C26_version_is_read.
(* A descriptor cut short is never taken for another one: it gives EOF_ERROR, or the null dereference of fis_read's error handler
   when it ends inside the three leading numbers of the field definitions. *)
Theorem C26_truncation_is_noticed : forall s, sis_ok s -> forall bs lo hi n, enc_sis s = Some bs -> fis_window s = Some (lo, hi) -> (n < length bs)%nat ->
  dec_sis (firstn n bs) = if ((lo <=? n) && (n <? hi))%nat then PUB else PEof.
Proof. exact descriptor_truncated. Qed.
Print Assumptions C26_truncation_is_noticed.
Example C26_truncation_is_noticed_ex : fis_window ex_sis = Some (48, 51)%nat /\ match enc_sis ex_sis with
  | Some bs => dec_sis (firstn 47 bs) = PEof /\ dec_sis (firstn 48 bs) = PUB /\ dec_sis (firstn 51 bs) = PEof /\ dec_version (firstn 12 bs) = POk 7 [] | None => False end.
Proof. vm_compute. auto. Qed.
