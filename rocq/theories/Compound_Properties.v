(* C07: packing files into a compound file and reading the members back, through any number of
   member streams used in any interleaving over the one shared stream of the compound file. *)
From Verif Require Import Util Codec_Model Codec_Spec Stream_Model Stream_Spec Stream_Proofs
  Compound_Model Compound_Spec Compound_Proofs.
Open Scope nat_scope.

Theorem C07_fs_compound_members : forall ms, packable ms ->
  exists os es is' opened,
    cw_close fsfile fso_flush_i fso_seek_i fsfile fsi_length_i fsi_read_i fsi_seek_i (mkFs [] 0)
      (map (fun m => (fst m, fs_open_input (snd m))) ms) = Some os /\
    open_cmpd_store fsfile fsi_length_i fsi_read_i (fs_open_input (fs_data (o_b os))) = Some (es, is') /\
    map ce_name es = map fst ms /\
    map (fun m => cmpd_find es (fst m)) ms = map Some opened /\
    map ce_length opened = map (fun m => Z.of_nat (length (snd m))) ms /\
    forall ops, agree_until_ub (ideal_members (map (fun m => (snd m, 0)) ms) ops)
                  (mrun fsfile fsi_read_i fsi_seek_i is' (map new_member opened) ops).
Proof. exact fs_compound_find. Qed.
Print Assumptions C07_fs_compound_members.

Theorem C07_ram_compound_members : forall ms srcs, packable ms ->
  Forall2 (fun m rf => ram_holds rf (snd m)) ms srcs ->
  exists os es is' opened,
    cw_close ramos ramo_flush_i ramo_seek_i ramis rami_length_i rami_read_i rami_seek_i (mkRo rf_new 0)
      (combine (map fst ms) (map ram_open_input srcs)) = Some os /\
    open_cmpd_store ramis rami_length_i rami_read_i (ram_open_input (ro_file (o_b os))) = Some (es, is') /\
    map ce_name es = map fst ms /\
    map (fun m => cmpd_find es (fst m)) ms = map Some opened /\
    map ce_length opened = map (fun m => Z.of_nat (length (snd m))) ms /\
    forall ops, agree_until_ub (ideal_members (map (fun m => (snd m, 0)) ms) ops)
                  (mrun ramis rami_read_i rami_seek_i is' (map new_member opened) ops).
Proof. exact ram_compound_find. Qed.
Print Assumptions C07_ram_compound_members.

(* two members, one of them empty, read alternately *)
Definition C07_ms : list (list Z * list Z) := [([97], [1; 2; 3]); ([98; 99], []); ([100], [9; 8])]%Z.
Example C07_example_packable : packable C07_ms.
Proof.
  split; [discriminate|]. split.
  - repeat constructor; cbn; intuition discriminate.
  - split; [reflexivity|]. split; [|reflexivity].
    repeat constructor; cbn; try lia; unfold is_byte; lia.
Qed.
Example C07_example_run :
  match cw_close fsfile fso_flush_i fso_seek_i fsfile fsi_length_i fsi_read_i fsi_seek_i (mkFs [] 0)
      (map (fun m => (fst m, fs_open_input (snd m))) C07_ms) with
  | Some os => match open_cmpd_store fsfile fsi_length_i fsi_read_i (fs_open_input (fs_data (o_b os))) with
               | Some (es, is') => mrun fsfile fsi_read_i fsi_seek_i is' (map new_member es)
                                     [(0, IByte); (2, IByte); (0, IByte); (1, IByte); (2, IBytes 2); (2, IByte); (0, IBytes 1)]
               | None => []
               end
  | None => []
  end = [Ok (VByte 1); Ok (VByte 9); Ok (VByte 2); Err; Err; Ok (VByte 8); Ok (VBytes [3])]%Z.
Proof. vm_compute. reflexivity. Qed.
