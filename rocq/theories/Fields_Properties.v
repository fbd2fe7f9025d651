(* C68 C69 C70 C71: stored fields, compressed fields, term vectors and lazily read bytes come back as they were written. *)
From Verif Require Import Util Codec_Model Codec_Spec Seg_Model Seg_Spec Dict_Model Dict_Spec Merge_Model Merge_Spec MergeDocs_Proofs Fields_Model Fields_Spec Fields_Proofs FieldsRead_Proofs FieldsTv_Proofs FieldsVec_Proofs FieldsTop_Proofs.
Open Scope Z_scope.

(* examples: a compressor that puts a byte in front *)
Definition zip1 (d : list Z) : list Z := 90 :: d.
Definition unzip1 (b : list Z) : option (list Z) := match b with 90 :: d => Some d | _ => None end.
Lemma codec1 : codec zip1 unzip1.
Proof. intros d. split; [discriminate|reflexivity]. Qed.
(* a: stored; b: neither stored nor indexed; c: stored and compressed; new fields are stored and indexed with vectors of positions and offsets *)
Definition fis1 : field_infos := mkFis 1 3 7 [mkFi [97] 1065353216 1; mkFi [98] 1065353216 0; mkFi [99] 1065353216 3].
Definition doc1 : document := mkDoc 1065353216 [mkDfd [100] 1065353216 [[1; 2]; []; [0; 255]]; mkDfd [98] 1065353216 [[9]]; mkDfd [97] 1065353216 [[7; 7; 7]]].
Definition doc2 : document := mkDoc 1065353216 [mkDfd [99] 1065353216 [[97; 98]; [99; 100]]; mkDfd [97] 1065353216 []].
Definition doc3 : document := mkDoc 1065353216 [].

(* Whatever documents are added with fields that are stored but not compressed: reading document n, at once or field by field, gives the
   stored fields of the nth document, the values byte for byte in their order. *)
Theorem C68_stored : forall zip unzip fuel fis l, codec zip unzip -> sizes fis l -> Forall (fun x => plain (fis_after fis l) (fst x)) l ->
  exists w, fw_puts zip (S fuel) fis fw_open l = Some (w, fis_after fis l) /\
    (Z.of_nat (length (fw_fdt w)) < 2 ^ 63 -> forall n x, nth_error l n = Some x ->
       fr_get_doc unzip (S fuel) (fis_after fis l) (fw_fdt w) (fw_fdx w) n = Some (stored_view (fis_after fis l) (fst x)) /\
       exists zs, fr_get_lazy (fis_after fis l) (fw_fdt w) (fw_fdx w) n = Some zs /\ Forall2 (lazy_ok unzip (S fuel) (fw_fdt w)) zs (stored_view (fis_after fis l) (fst x))).
Proof. intros zip unzip fuel fis l HC HS HP. apply top_stored; auto. eapply Forall_impl; [|exact HP]. cbv beta. intros. apply plain_small; auto. Qed.
Print Assumptions C68_stored.
Example c68_ex : match fw_puts zip1 1 fis1 fw_open [(doc1, []); (doc3, []); (doc1, [])] with
  | Some (w, fis) => (length (fis_fields fis), map (fr_get_doc unzip1 1 fis (fw_fdt w) (fw_fdx w)) [0; 1; 2]%nat) =
      (4%nat, [Some [([100], [[1; 2]; []; [0; 255]]); ([97], [[7; 7; 7]])]; Some []; Some [([100], [[1; 2]; []; [0; 255]]); ([97], [[7; 7; 7]])]])
  | None => False end.
Proof. vm_compute. reflexivity. Qed.
Example c68_lazy_ex : match fw_puts zip1 1 fis1 fw_open [(doc3, []); (doc1, [])] with
  | Some (w, fis) => match fr_get_lazy fis (fw_fdt w) (fw_fdx w) 1 with
                     | Some [z; y] => (lazy_get unzip1 1 (fw_fdt w) z 2, lazy_get unzip1 1 (fw_fdt w) z 1, lazy_get unzip1 1 (fw_fdt w) y 0, z_name y) = (Some [0; 255], Some [], Some [7; 7; 7], [97])
                     | _ => False end
  | None => False end.
Proof. vm_compute. reflexivity. Qed.

(* So it is after merging segments: the documents that are not deleted keep their stored fields. *)
Theorem C68_merged : forall zip unzip fuel F segs, codec zip unzip -> Z.of_nat (length (fis_fields F)) < 2 ^ 31 ->
  let kept := flat_map (fun s : insrc => live_of (idel s) (fst s)) segs in
  Forall (fun s : insrc => Forall (xok zip F) (fst s) /\ Forall doc_fits (fst s) /\ Forall (fun x => names_differ (fst x)) (fst s) /\ Z.of_nat (length (fdt_of (map (rec_of zip F) (fst s)))) < 2 ^ 63) segs ->
  Z.of_nat (length (fdt_of (map (rec_of zip F) kept))) < 2 ^ 63 -> Z.of_nat (12 * length kept) < 2 ^ 31 ->
  exists fdt fdx, sm_merge_fields (map (fun s : insrc => dfiles_of (map (rec_of zip F) (fst s), snd s)) segs) [] [] = Some (fdt, fdx) /\
    forall n x, nth_error kept n = Some x -> fr_get_doc unzip (S fuel) F fdt fdx n = Some (stored_view F (fst x)).
Proof. exact top_merged. Qed.
Print Assumptions C68_merged.
(* the files merged are those the writer makes *)
Theorem C68_written : forall zip fuel fis l, tvs_known fis l -> Forall (fun x => small_zip zip (fis_after fis l) (fst x)) l ->
  exists w, fw_puts zip (S fuel) fis fw_open l = Some (w, fis_after fis l) /\ (fw_fdt w, fw_fdx w, None) = dfiles_of (map (rec_of zip (fis_after fis l)) l, None).
Proof. intros zip fuel fis l H1 H2. destruct (top_written zip fuel fis l H1 H2) as (w & E1 & E2 & E3). exists w. split; auto. rewrite E2, E3. reflexivity. Qed.
Print Assumptions C68_written.
Example c68_merged_ex : match fw_puts zip1 1 fis1 fw_open [(doc1, []); (doc2, [])], fw_puts zip1 1 (fis_after fis1 [(doc1, [])]) fw_open [(doc2, []); (doc3, [])] with
  | Some (w1, f1), Some (w2, f2) =>
      match sm_merge_fields [(fw_fdt w1, fw_fdx w1, Some (fun d => d =? 0)); (fw_fdt w2, fw_fdx w2, None)] [] [] with
      | Some (fdt, fdx) => map (fr_get_doc unzip1 1 f2 fdt fdx) [0; 1; 2; 3]%nat = [Some [([99], [[97; 98]; [99; 100]]); ([97], [])]; Some [([99], [[97; 98]; [99; 100]]); ([97], [])]; Some []; None]
      | None => False end
  | _, _ => False end.
Proof. vm_compute. reflexivity. Qed.

(* Compressed fields: values of 16348 bytes and more are lost: the writer does not end, or the reader does not. *)
Theorem C69_large_refuted : forall zip unzip fuel v, codec zip unzip -> (ZIP_BUFFER_SIZE <= length v)%nat ->
  match fw_puts zip fuel czip_fis fw_open [(czip_doc v, [])] with
  | None => True
  | Some (w, fis) => fr_get_doc unzip fuel fis (fw_fdt w) (fw_fdx w) 0 = None
  end.
Proof. exact top_big. Qed.
Print Assumptions C69_large_refuted.
Example c69_large_ex : sizes czip_fis [(czip_doc (repeat 120 ZIP_BUFFER_SIZE), [])] /\ is_comp czip_fis (mkDfd [99] 0 []) = true.
Proof.
  Transparent ZIP_BUFFER_SIZE. split; [|reflexivity]. unfold sizes. split; [cbn [tvs_known snd]; split; [apply Forall_nil|exact I]|]. split.
  - apply Forall_cons; [|apply Forall_nil]. unfold doc_fits, stored_size, czip_doc, field_size, value_size. cbn [fst snd d_fields df_data fold_right tvs_size]. rewrite repeat_length. rewrite !Nat2Z.inj_add. change (Z.of_nat ZIP_BUFFER_SIZE) with 16348. lia.
  - split; [|vm_compute; split; reflexivity]. apply Forall_cons; [|apply Forall_nil]. unfold names_differ. cbn. constructor; [intros []|constructor].
  Opaque ZIP_BUFFER_SIZE.
Qed.
(* Below that, compressed too, they come back. *)
Theorem C69_small_partial : forall zip unzip fuel fis l, codec zip unzip -> sizes fis l -> Forall (fun x => small_zip zip (fis_after fis l) (fst x)) l ->
  exists w, fw_puts zip (S fuel) fis fw_open l = Some (w, fis_after fis l) /\
    (Z.of_nat (length (fw_fdt w)) < 2 ^ 63 -> forall n x, nth_error l n = Some x ->
       fr_get_doc unzip (S fuel) (fis_after fis l) (fw_fdt w) (fw_fdx w) n = Some (stored_view (fis_after fis l) (fst x)) /\
       exists zs, fr_get_lazy (fis_after fis l) (fw_fdt w) (fw_fdx w) n = Some zs /\ Forall2 (lazy_ok unzip (S fuel) (fw_fdt w)) zs (stored_view (fis_after fis l) (fst x))).
Proof. exact top_stored. Qed.
Print Assumptions C69_small_partial.
Example c69_ex : match fw_puts zip1 1 fis1 fw_open [(doc1, []); (doc2, [])] with
  | Some (w, fis) => fr_get_doc unzip1 1 fis (fw_fdt w) (fw_fdx w) 1 = Some [([99], [[97; 98]; [99; 100]]); ([97], [])]
  | None => False end.
Proof. vm_compute. reflexivity. Qed.

(* The term vector of a field: every term with its frequency, and its positions and the offsets if they are stored; none for a field
   without; all of them, in the order of the document, unless one of a field that stores offsets has no terms. *)
Theorem C70_vectors_partial : forall zip fuel fis l, sizes fis l -> Forall (fun x => small_zip zip (fis_after fis l) (fst x)) l ->
  exists w, fw_puts zip (S fuel) fis fw_open l = Some (w, fis_after fis l) /\
    (Z.of_nat (length (fw_fdt w)) < 2 ^ 63 -> forall n x, nth_error l n = Some x -> Forall tv_ok (snd x) -> NoDup (map (fun t : tv_in => fst (fst t)) (snd x)) ->
       (forall t f, In t (snd x) -> nth_error (fis_fields (fis_after fis l)) (fst (fst t)) = Some f -> fr_get_field_tv (fis_after fis l) (fw_fdt w) (fw_fdx w) n (fst (fst t)) = Some (Some (tv_of f t))) /\
       (forall num, ~ In num (map (fun t : tv_in => fst (fst t)) (snd x)) -> fr_get_field_tv (fis_after fis l) (fw_fdt w) (fw_fdx w) n num = Some None) /\
       (Forall (no_tail (fis_after fis l)) (snd x) -> fr_get_tv (fis_after fis l) (fw_fdt w) (fw_fdx w) n = Some (map (tv_at_num (fis_after fis l)) (snd x)))).
Proof. exact top_tv. Qed.
Print Assumptions C70_vectors_partial.
(* vectors: 236 with positions and offsets, 108 with positions, 44 with neither *)
Definition fis2 : field_infos := mkFis 0 0 0 [mkFi [97] 1065353216 236; mkFi [98] 1065353216 108; mkFi [99] 1065353216 44].
Definition tva : tv_in := (0%nat, [([97; 98], [0; 3]); ([97; 99; 100], [1])], [(0, 2); (3, 6); (0, 0); (9, 11)]).
Definition tvb_ : tv_in := (1%nat, [([120], [-1; 5])], []).
Definition tvc : tv_in := (2%nat, [([121], [4])], []).
Example c70_ex : match fw_puts zip1 1 fis2 fw_open [(doc3, [tva; tvb_]); (doc3, []); (doc3, [tvc; tva])] with
  | Some (w, fis) =>
      (fr_get_field_tv fis (fw_fdt w) (fw_fdx w) 2 0, fr_get_field_tv fis (fw_fdt w) (fw_fdx w) 2 1, fr_get_tv fis (fw_fdt w) (fw_fdx w) 0) =
      (Some (Some (mkTv [97] [([97; 98], 2, Some [0; 3]); ([97; 99; 100], 1, Some [1])] (Some [(0, 2); (3, 6); (0, 0); (9, 11)]))), Some None,
       Some [mkTv [97] [([97; 98], 2, Some [0; 3]); ([97; 99; 100], 1, Some [1])] (Some [(0, 2); (3, 6); (0, 0); (9, 11)]); mkTv [98] [([120], 2, Some [-1; 5])] None])
  | None => False end.
Proof. vm_compute. reflexivity. Qed.
(* A field that stores offsets and has no terms in a document (stop words only) hides the vectors of the fields after it. *)
Theorem C70_no_terms_refuted : exists fis x w t f, Forall tv_ok (snd x) /\ fw_puts zip1 1 fis fw_open [x] = Some (w, fis) /\ In t (snd x) /\ nth_error (fis_fields fis) (fst (fst t)) = Some f /\
  v_terms (tv_of f t) = [([97; 98], 2, Some [0; 3]); ([97; 99; 100], 1, Some [1])] /\ fr_get_field_tv fis (fw_fdt w) (fw_fdx w) 0 (fst (fst t)) = Some (Some (tv_of f t)) /\
  exists vs, fr_get_tv fis (fw_fdt w) (fw_fdx w) 0 = Some vs /\ Forall (fun v => v_terms v = []) vs.
Proof.
  set (fis := mkFis 0 0 0 [mkFi [97] 1065353216 236; mkFi [98] 1065353216 236]). set (t := (1%nat, snd (fst tva), snd tva) : tv_in).
  assert (Hc : match fw_puts zip1 1 fis fw_open [(doc3, [(O, [], []); t])] with
               | Some (w, fis') => fis' = fis /\ fr_get_field_tv fis (fw_fdt w) (fw_fdx w) 0 1 = Some (Some (tv_of (mkFi [98] 1065353216 236) t)) /\ fr_get_tv fis (fw_fdt w) (fw_fdx w) 0 = Some [mkTv [97] [] None; mkTv [98] [] None]
               | None => False end) by (vm_compute; repeat split).
  destruct (fw_puts zip1 1 fis fw_open [(doc3, [(O, [], []); t])]) as [(w & fis')|] eqn:E; [|contradiction]. destruct Hc as (-> & H1 & H2).
  exists fis, (doc3, [(O, [], []); t]), w, t, (mkFi [98] 1065353216 236). split.
  - cbn [snd]. apply Forall_cons; [split; apply Forall_nil|]. apply Forall_cons; [|apply Forall_nil]. split; cbn [fst snd t tva].
    + repeat (apply Forall_cons; [cbn [fst snd]; split; [split; [repeat (apply Forall_cons; [lia|]); apply Forall_nil|cbn; lia]|repeat (apply Forall_cons; [lia|]); apply Forall_nil]|]). apply Forall_nil.
    + repeat (apply Forall_cons; [cbn [fst snd]; lia|]). apply Forall_nil.
  - split; [exact E|]. split; [right; left; reflexivity|]. split; [reflexivity|]. split; [reflexivity|]. split; [exact H1|]. exists [mkTv [97] [] None; mkTv [98] [] None]. split; [exact H2|]. repeat (apply Forall_cons; [reflexivity|]). apply Forall_nil.
Qed.
Print Assumptions C70_no_terms_refuted.

(* The bytes of a lazy field are those of its values with a space between them: of every field that is not compressed; of a compressed field
   unless they begin at such a space, where they are those one place further, with a space at the end. *)
Theorem C71_bytes_partial : forall zip unzip fuel fis l, codec zip unzip -> sizes fis l -> Forall (fun x => small_zip zip (fis_after fis l) (fst x)) l ->
  exists w, fw_puts zip (S fuel) fis fw_open l = Some (w, fis_after fis l) /\
    (Z.of_nat (length (fw_fdt w)) < 2 ^ 63 -> forall n x, nth_error l n = Some x -> exists zs, fr_get_lazy (fis_after fis l) (fw_fdt w) (fw_fdx w) n = Some zs /\
       Forall2 (fun z df => z_comp z = is_comp (fis_after fis l) df /\ forall start len, lazy_bytes unzip (S fuel) (fw_fdt w) z start len =
          if (1 <=? len)%nat && (start + len <=? length (joined (df_data df)))%nat
          then Some (if z_comp z && gap (df_data df) start then firstn len (skipn (S start) (joined (df_data df)) ++ [32]) else firstn len (skipn start (joined (df_data df)))) else None)
         zs (filter (is_stored (fis_after fis l)) (d_fields (fst x)))).
Proof. exact top_bytes. Qed.
Print Assumptions C71_bytes_partial.
Definition c71_run (start len : nat) : option (list Z) * option (list Z) :=
  match fw_puts zip1 1 fis1 fw_open [(mkDoc 1065353216 [mkDfd [99] 1065353216 [[97; 98]; [99; 100]]; mkDfd [97] 1065353216 [[97; 98]; [99; 100]]], [])] with
  | Some (w, fis) => match fr_get_lazy fis (fw_fdt w) (fw_fdx w) 0 with
                     | Some [z; y] => (lazy_bytes unzip1 1 (fw_fdt w) z start len, lazy_bytes unzip1 1 (fw_fdt w) y start len) | _ => (None, None) end
  | None => (None, None) end.
(* the same values, compressed and not *)
Theorem C71_gap_refuted : joined [[97; 98]; [99; 100]] = [97; 98; 32; 99; 100] /\ c71_run 2 3 = (Some [99; 100; 32], Some [32; 99; 100]).
Proof. split; [reflexivity|vm_compute; reflexivity]. Qed.
Print Assumptions C71_gap_refuted.
Example c71_ex : c71_run 1 3 = (Some [98; 32; 99], Some [98; 32; 99]) /\ c71_run 0 6 = (None, None) /\ c71_run 4 1 = (Some [100], Some [100]).
Proof. vm_compute. repeat split. Qed.
