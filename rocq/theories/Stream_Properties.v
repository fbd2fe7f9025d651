(* C03-C06: buffered streams and the two kinds of files. *)
From Verif Require Import Util Codec_Model Codec_Spec Stream_Model Stream_Spec Stream_Proofs.
Open Scope nat_scope.

(* C03, operating system files: any operations (also seeks beyond the end), any old contents *)
Theorem C03_fs_output_is_ideal_file : forall old ops, Forall values_ok ops ->
  exists f s s', ideal_run (mkOf (match old with Some d => d | None => [] end) 0) ops = Some f /\
    orun fsfile fso_flush_i fso_seek_i (fs_new_output old) ops = Some s /\
    os_pos s = f_pos f /\
    os_flush fsfile fso_flush_i s = Some s' /\ fs_data (o_b s') = f_data f /\ os_pos s' = f_pos f.
Proof. exact fs_out_correct. Qed.
Print Assumptions C03_fs_output_is_ideal_file.
Example C03_fs_example : Forall values_ok [OVint 300; OSeek 5; OBytes [7; 8]%Z; OSeek 0; OByte 1%Z] /\
  ideal_run (mkOf [] 0) [OVint 300; OSeek 5; OBytes [7; 8]%Z; OSeek 0; OByte 1%Z]
  = Some (mkOf [1; 2; 0; 0; 0; 7; 8]%Z 1).
Proof. split; [repeat constructor; cbn; lia | reflexivity]. Qed.

(* C03, in-memory files: seeks stay within the bytes written *)
Theorem C03_ram_output_is_ideal_file : forall old d ops,
  (match old with Some rf => ram_holds rf d | None => d = [] end) ->
  Forall values_ok ops -> seeks_within (mkOf d 0) ops ->
  exists f s s', ideal_run (mkOf d 0) ops = Some f /\
    orun ramos ramo_flush_i ramo_seek_i (ram_new_output old) ops = Some s /\
    os_pos s = f_pos f /\
    os_flush ramos ramo_flush_i s = Some s' /\ ram_holds (ro_file (o_b s')) (f_data f) /\
    os_pos s' = f_pos f.
Proof. exact ram_out_correct. Qed.
Print Assumptions C03_ram_output_is_ideal_file.
Example C03_ram_example : Forall values_ok [OBytes [7; 8]%Z; OSeek 1; O32 5%Z] /\
  seeks_within (mkOf [] 0) [OBytes [7; 8]%Z; OSeek 1; O32 5%Z] /\
  ideal_run (mkOf [] 0) [OBytes [7; 8]%Z; OSeek 1; O32 5%Z] = Some (mkOf [7; 0; 0; 0; 5]%Z 5).
Proof. split; [repeat constructor|]. split; [cbn; lia|reflexivity]. Qed.

(* C04: any operation sequence on an input stream returns what the flat file holds; reading past
   the end raises an error and the stream stays usable *)
Theorem C04_fs_input_is_ideal_file : forall f ops,
  agree_until_ub (ideal_reads fs_past f 0 ops)
    (irun fsfile fsi_length_i fsi_read_i fsi_seek_i (fs_open_input f) ops).
Proof. exact fs_in_correct. Qed.
Print Assumptions C04_fs_input_is_ideal_file.
Example C04_fs_example :
  irun fsfile fsi_length_i fsi_read_i fsi_seek_i (fs_open_input [172; 2; 9]%Z)
    [IVint; IByte; IByte; ISeek 1; IBytes 5; IBytes 2] =
  [Ok (VInt 300); Ok (VByte 9); Err; Ok VUnit; Err; Ok (VBytes [2; 9])]%Z.
Proof. vm_compute. reflexivity. Qed.

Theorem C04_ram_input_is_ideal_file : forall rf f ops, ram_holds rf f ->
  agree_until_ub (ideal_reads ram_past f 0 ops)
    (irun ramis rami_length_i rami_read_i rami_seek_i (ram_open_input rf) ops).
Proof. exact ram_in_correct. Qed.
Print Assumptions C04_ram_input_is_ideal_file.
Example C04_ram_example : exists rf, ram_holds rf [5; 6]%Z /\
  irun ramis rami_length_i rami_read_i rami_seek_i (ram_open_input rf) [IByte; IBytes 1; IByte]
  = [Ok (VByte 5); Ok (VBytes [6]); Err]%Z.
Proof.
  destruct (ram_flush_ok (mkRo rf_new 0) [] 0 [5; 6]%Z) as (b & E & Hh & _).
  - split; [apply ram_holds_new|reflexivity].
  - unfold within; cbn; lia.
  - pose proof BS_val; cbn [length]; lia.
  - exists (ro_file b). split; [exact Hh|].
    assert (H : match ramo_flush_i (mkRo rf_new 0) [5; 6]%Z with
                | Some b => irun ramis rami_length_i rami_read_i rami_seek_i (ram_open_input (ro_file b)) [IByte; IBytes 1; IByte]
                | None => []
                end = [Ok (VByte 5); Ok (VBytes [6]); Err]%Z) by (vm_compute; reflexivity).
    rewrite E in H. exact H.
Qed.

(* The in-memory store violates the "end of file" half of C04: a bulk read across the end raises
   nothing and hands out cells nobody wrote (ram_store.c:294-323 has no length check). *)
Theorem C04_ram_overread_refuted : exists rf f n, ram_holds rf f /\ length f < n /\
  irun ramis rami_length_i rami_read_i rami_seek_i (ram_open_input rf) [IBytes n] = [UB].
Proof. exists rf_new, [], 1. split; [exact ram_holds_new|]. split; [cbn; lia|]. vm_compute. reflexivity. Qed.
Print Assumptions C04_ram_overread_refuted.

(* C05: chunked in-memory files are flat arrays *)
Theorem C05_ram_is_flat_array : forall ws, writes_within [] ws ->
  exists b, ram_writes (mkRo rf_new 0) ws = Some b /\
    rf_len (ro_file b) = length (flat_writes [] ws) /\
    forall p n, p + n <= length (flat_writes [] ws) ->
      fst (rami_read_i (mkRi (ro_file b) p) p n) = Ok (firstn n (skipn p (flat_writes [] ws))).
Proof. exact ram_flat. Qed.
Print Assumptions C05_ram_is_flat_array.
Example C05_example : writes_within [] [(0, [1; 2; 3]%Z); (2, [9; 9]%Z)] /\
  flat_writes [] [(0, [1; 2; 3]%Z); (2, [9; 9]%Z)] = [1; 2; 9; 9]%Z.
Proof. split; [cbn; pose proof BS_val; lia | reflexivity]. Qed.

(* ramo_write_to copies the whole buffer, if its length is not a positive multiple of 1024 *)
Theorem C05_write_to_copies : forall ops d, Forall values_ok ops -> seeks_within (mkOf [] 0) ops ->
  ideal_run (mkOf [] 0) ops = Some d ->
  length (f_data d) mod BUFFER_SIZE <> 0 \/ f_data d = [] ->
  exists s, orun ramos ramo_flush_i ramo_seek_i (ram_new_output None) ops = Some s /\
    ramo_write_to s = Some (f_data d).
Proof. exact ramo_write_to_run. Qed.
Print Assumptions C05_write_to_copies.
Example C05_write_to_example : ideal_run (mkOf [] 0) [OVint 300] = Some (mkOf [172; 2]%Z 2) /\
  length [172; 2]%Z mod BUFFER_SIZE <> 0.
Proof. split; vm_compute; congruence. Qed.

(* With exactly 1024 bytes in the buffer the loop of ramo_write_to reads the chunk table out of
   bounds (ram_store.c:247-251: i runs to last_buffer_number inclusive). *)
Theorem C05_write_to_multiple_of_chunk_refuted : exists ops s,
  orun ramos ramo_flush_i ramo_seek_i (ram_new_output None) ops = Some s /\
  Forall values_ok ops /\ ramo_write_to s = None.
Proof.
  exists (repeat (OByte 7%Z) BUFFER_SIZE).
  assert (H : match orun ramos ramo_flush_i ramo_seek_i (ram_new_output None) (repeat (OByte 7%Z) BUFFER_SIZE) with
              | Some s => match ramo_write_to s with None => true | Some _ => false end
              | None => false
              end = true) by (vm_compute; reflexivity).
  destruct (orun ramos ramo_flush_i ramo_seek_i (ram_new_output None) (repeat (OByte 7%Z) BUFFER_SIZE))
    as [s|]; [|discriminate].
  exists s. split; [reflexivity|]. split.
  - apply Forall_forall; intros o Ho. apply repeat_spec in Ho; subst. exact I.
  - destruct (ramo_write_to s); [discriminate|reflexivity].
Qed.
Print Assumptions C05_write_to_multiple_of_chunk_refuted.

(* C06: what a name holds after opening it for output, writing w and closing: w followed by the tail
   of the old contents - neither store truncates. *)
Theorem C06_fs_output_exact : forall old ops w,
  Forall values_ok ops -> Forall no_seek ops -> written ops = Some w ->
  exists s s', orun fsfile fso_flush_i fso_seek_i (fs_new_output old) ops = Some s /\
    os_flush fsfile fso_flush_i s = Some s' /\
    fs_data (o_b s') = w ++ skipn (length w) (match old with Some d => d | None => [] end).
Proof. exact fs_output_exact. Qed.
Print Assumptions C06_fs_output_exact.
Theorem C06_ram_output_exact : forall old d ops w,
  (match old with Some rf => ram_holds rf d | None => d = [] end) ->
  Forall values_ok ops -> Forall no_seek ops -> written ops = Some w ->
  exists s s', orun ramos ramo_flush_i ramo_seek_i (ram_new_output old) ops = Some s /\
    os_flush ramos ramo_flush_i s = Some s' /\
    ram_holds (ro_file (o_b s')) (w ++ skipn (length w) d).
Proof. exact ram_output_exact. Qed.
Print Assumptions C06_ram_output_exact.
Example C06_exact_example : Forall values_ok [OString [104; 105]%Z] /\ Forall no_seek [OString [104; 105]%Z] /\
  written [OString [104; 105]%Z] = Some [2; 104; 105]%Z.
Proof. repeat split; repeat constructor; cbn; lia. Qed.

(* The claim of C06 is violated: old bytes survive behind the new ones. *)
Theorem C06_output_replaces_refuted : exists old ops w s s',
  written ops = Some w /\ Forall values_ok ops /\ Forall no_seek ops /\
  orun fsfile fso_flush_i fso_seek_i (fs_new_output (Some old)) ops = Some s /\
  os_flush fsfile fso_flush_i s = Some s' /\ fs_data (o_b s') <> w.
Proof.
  exists [1; 2; 3]%Z, [OByte 9%Z], [9]%Z. eexists. eexists.
  split; [reflexivity|]. split; [repeat constructor|]. split; [repeat constructor|].
  split; [vm_compute; reflexivity|]. split; [vm_compute; reflexivity|]. vm_compute. congruence.
Qed.
Print Assumptions C06_output_replaces_refuted.
