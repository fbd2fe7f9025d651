(* C72 C73 C74: the document writer makes the index of the documents it is given; how many terms of a field it takes; finding a document by
   a value that is not tokenized. *)
From Verif Require Import Util Strcmp Codec_Spec Seg_Model Seg_Spec Dict_Model Dict_Spec Token_Model Post_Model Post_Spec PostRun_Proofs Mte_Spec Fields_Model Fields_Spec Fields_Properties Invert_Model Invert_Spec Invert_Proofs InvertTop_Proofs.
Open Scope Z_scope.

(* examples: every byte is a token; t: tokenized with vectors, positions and offsets; u: indexed, not tokenized, without norms; s: only stored *)
Fixpoint bytes_at (i : nat) (v : list Z) : list token := match v with [] => [] | b :: r => mkTok [b] i (S i) 1 :: bytes_at (S i) r end.
Definition ana1 (_ : list Z) (v : list Z) : list token := bytes_at O v.
Definition norm1 (f : field_info) (b : Z) (df : dfield) (len : Z) : Z := len mod 256.
Definition ifis : field_infos := mkFis 1 2 0 [mkFi [116] 1065353216 (4 + 8 + 32 + 64 + 128); mkFi [117] 1065353216 (4 + 16); mkFi [115] 1065353216 1].
Definition idocs : list document :=
  [mkDoc 1065353216 [mkDfd [116] 1065353216 [[97; 98]; [97]]; mkDfd [117] 1065353216 [[107; 49]]];
   mkDoc 1065353216 [mkDfd [115] 1065353216 [[1]]];
   mkDoc 1065353216 [mkDfd [117] 1065353216 [[107; 50]; [107; 49]]; mkDfd [116] 1065353216 [[98]]]].

(* Whatever documents are added to a new segment, whatever the analyzer: every enumerator on the files answers as on the index of the
   documents, the norms are those of the documents, and the stored fields and vectors are written in their order. *)
Theorem C72_index : forall ana norm zip fuel max mbd fis docs I kn, (1 <= I)%nat -> Z.of_nat I < 2 ^ 31 -> (1 <= kn)%nat -> Z.of_nat kn < 2 ^ 31 -> let F := fis_of fis docs in
  fit ana max F docs -> (length docs <= mbd)%nat -> Forall (small_zip zip F) docs ->
  exists s g sf, dw_add_docs ana norm zip (S fuel) max mbd (dw_open fis) docs = Some s /\ x_fis s = F /\
    fw_puts zip (S fuel) fis fw_open (with_vectors ana max F docs) = Some (x_fw s, F) /\
    dw_write (Z.of_nat I) (Z.of_nat kn) s = Some (g, norm_table ana norm max F docs) /\ dw_flush (Z.of_nat I) (Z.of_nat kn) (index_of ana max F docs) = Some g /\ sfi_open (g_dict g) = Some sf /\
    forall pos os, Forall (okop kn pos) os -> tde_run pos g sf (tir_open, tde_new (g_frq g) (g_prx g)) os = Some (pspec_run (index_of ana max F docs) ([], []) os).
Proof. exact top_index. Qed.
Print Assumptions C72_index.
(* The postings of a term are the documents that have it, with its positions in them, in their order; a document is among them exactly if the
   term occurs in the field. *)
Theorem C72_postings : forall ana max F docs n t, postings (index_of ana max F docs) (Z.of_nat n) t = posts ana max F n t O docs /\
  (forall k d, nth_error docs k = Some d -> at_ t (occs_in ana max F n d) <> [] -> In (Z.of_nat k, at_ t (occs_in ana max F n d)) (posts ana max F n t O docs)) /\
  (forall x ps, In (x, ps) (posts ana max F n t O docs) -> exists k d, x = Z.of_nat k /\ nth_error docs k = Some d /\ ps = at_ t (occs_in ana max F n d) /\ ps <> []).
Proof.
  intros. split; [apply (postings_index ana norm1 zip1)|]. split.
  - intros k d. apply (posts_nth ana norm1 zip1 max F n t docs O).
  - intros x ps. apply (posts_nth_inv ana norm1 zip1 max F n t docs O).
Qed.
Print Assumptions C72_postings.
(* The vectors read back hold the terms of their field. *)
Theorem C72_vectors : forall ana zip fuel max fis docs, let F := fis_of fis docs in
  Forall names_differ docs -> Forall doc_fits (with_vectors ana max F docs) -> Z.of_nat (length (fis_fields F)) < 2 ^ 31 -> Z.of_nat (12 * length docs) < 2 ^ 31 -> Forall (small_zip zip F) docs ->
  forall w, fw_puts zip (S fuel) fis fw_open (with_vectors ana max F docs) = Some (w, F) -> Z.of_nat (length (fw_fdt w)) < 2 ^ 63 ->
  forall i d, nth_error docs i = Some d -> Forall tv_ok (vectors ana max F d) ->
    (forall t f, In t (vectors ana max F d) -> nth_error (fis_fields F) (fst (fst t)) = Some f -> fr_get_field_tv F (fw_fdt w) (fw_fdx w) i (fst (fst t)) = Some (Some (tv_of f t))) /\
    (forall num, ~ In num (map (fun t : tv_in => fst (fst t)) (vectors ana max F d)) -> fr_get_field_tv F (fw_fdt w) (fw_fdx w) i num = Some None).
Proof. exact top_vectors. Qed.
Print Assumptions C72_vectors.
Example c72_ex : match dw_add_docs ana1 norm1 zip1 1 100 10 (dw_open ifis) idocs with
  | Some s => match dw_write 128 16 s with
              | Some (g, ns) => ns = [(0%nat, [3; 0; 1])] /\
                  match sfi_open (g_dict g) with
                  | Some sf => tde_run true g sf (tir_open, tde_new (g_frq g) (g_prx g)) [PSeek 0 [97]; PNext (fun _ => false); PPos; PPos; PNext (fun _ => false); PSeek 1 [107; 49]; PNext (fun _ => false); PNext (fun _ => false); PPos; PNext (fun _ => false)]
                               = Some [PUnit; PDoc (Some (0, 2)); PPosn 0; PPosn 2; PDoc None; PUnit; PDoc (Some (0, 1)); PDoc (Some (2, 1)); PPosn 1; PDoc None]
                  | None => False end /\
                  fr_get_field_tv (x_fis s) (fw_fdt (x_fw s)) (fw_fdx (x_fw s)) 0 0 = Some (Some (mkTv [116] [([97], 2, Some [0; 2]); ([98], 1, Some [1])] (Some [(0, 1); (1, 2); (3, 4)])))
              | None => False end
  | None => False end.
Proof. vm_compute. splits; reflexivity. Qed.
Example c72_fit : fit ana1 100 (fis_of ifis idocs) idocs.
Proof.
  unfold fit. split; [|split; [|split]]; try (vm_compute; reflexivity).
  repeat (apply Forall_cons; [unfold doc_good; split; [unfold names_differ; repeat constructor; cbn; intuition congruence|]|]); try apply Forall_nil.
  all: cbn [d_fields]; repeat (apply Forall_cons; [intros n f E Hi; vm_compute in E; try discriminate; injection E as <- <-; unfold occs_ok; try discriminate Hi|]); try apply Forall_nil.
  all: split; [repeat (apply Forall_cons; [split; [split; [vm_compute; repeat constructor; lia|vm_compute; repeat constructor; try congruence; lia]|vm_compute; split; congruence]|]); try apply Forall_nil|intros _; repeat constructor; vm_compute; congruence].
Qed.

(* max_field_length is to be the number of terms of a field that are indexed.  Every further value adds one, the first one adds one, too. *)
Theorem C73_one_more_refuted : forall ana max f df ts r, 0 <= max -> fi_is_tokenized f = true -> toks ana df = ts :: r -> max + 1 <= Z.of_nat (length ts) -> Forall (fun ts => ts <> []) r ->
  Z.of_nat (length (occs_of ana max f df)) = max + Z.of_nat (length (df_data df)).
Proof. intros ana. exact (field_length_exceeded ana norm1). Qed.
Print Assumptions C73_one_more_refuted.
Example c73_ex : exists s, dw_add_docs ana1 norm1 zip1 1 2 10 (dw_open ifis) [mkDoc 0 [mkDfd [116] 0 [[97; 98; 99; 100]; [101; 102]; [103]]]] = Some s /\
  inverted s = [(0, [([97], [(0, [0])]); ([98], [(0, [1])]); ([99], [(0, [2])]); ([101], [(0, [3])]); ([103], [(0, [4])])])].
Proof. eexists. split; vm_compute; reflexivity. Qed.
(* It is never more than one for every value, the first terms of each value are taken, and a field that has no more than max_field_length
   terms is indexed whole. *)
Theorem C73_bound_partial : forall ana max f df, 0 <= max -> fi_is_tokenized f = true ->
  Z.of_nat (length (occs_of ana max f df)) <= max + Z.of_nat (length (df_data df)) /\
  (Z.of_nat (length (concat (toks ana df))) <= max + 1 -> occs_of ana max f df = place (-1) (with_start 0 (combine (df_data df) (toks ana df)))).
Proof. intros ana. exact (field_length ana norm1). Qed.
Print Assumptions C73_bound_partial.
Theorem C73_prefix_partial : forall max l n, Forall2 (fun a b => exists k, a = firstn k b) (kept max n l) l.
Proof. exact kept_prefix. Qed.
Print Assumptions C73_prefix_partial.

(* Looking up a value of a field that is not tokenized finds exactly the documents that have the value, as long as values have at most 255
   bytes ... *)
Theorem C74_short_partial : forall ana max F n f docs v, nth_error (fis_fields F) n = Some f -> fi_is_tokenized f = false -> (length v <= MAX_WORD_SIZE)%nat ->
  Forall (fun d => Forall (fun u => (length u <= MAX_WORD_SIZE)%nat) (match field_of F n d with Some df => df_data df | None => [] end)) docs ->
  forall k, (exists ps, In (Z.of_nat k, ps) (posts ana max F n v O docs)) <-> (exists d df, nth_error docs k = Some d /\ field_of F n d = Some df /\ In v (df_data df)).
Proof. intros ana. exact (raw_found ana norm1 zip1). Qed.
Print Assumptions C74_short_partial.
Definition key (n : nat) (b : Z) : list Z := repeat 97 n ++ [b].
Definition key_docs (n : nat) : list document := [mkDoc 0 [mkDfd [117] 0 [key n 49]]; mkDoc 0 [mkDfd [117] 0 [key n 50]]].
Definition key_run (n : nat) (os : list pop) : option (list pres) :=
  match dw_add_docs ana1 norm1 zip1 1 2 10 (dw_open ifis) (key_docs n) with
  | Some s => match dw_write 128 16 s with
              | Some (g, _) => match sfi_open (g_dict g) with Some sf => tde_run false g sf (tir_open, tde_new (g_frq g) (g_prx g)) os | None => None end
              | None => None end
  | None => None end.
Definition none (d : Z) : bool := false.
Example c74_ex : key_run 253 [PSeek 1 (key 253 50); PNext none; PNext none] = Some [PUnit; PDoc (Some (1, 1)); PDoc None].
Proof. vm_compute. reflexivity. Qed.
(* ... but the term of a value of 255 bytes does not fit the buffer it is read into: *)
Theorem C74_255_refuted : exists s g sf, dw_add_docs ana1 norm1 zip1 1 2 10 (dw_open ifis) (key_docs 254) = Some s /\ dw_write 128 16 s = Some (g, []) /\ sfi_open (g_dict g) = Some sf /\
  tde_run false g sf (tir_open, tde_new (g_frq g) (g_prx g)) [PSeek 1 (key 254 50)] = None.
Proof.
  assert (E : match dw_add_docs ana1 norm1 zip1 1 2 10 (dw_open ifis) (key_docs 254) with
    | Some s => match dw_write 128 16 s with
      | Some (g, []) => match sfi_open (g_dict g) with Some sf => match tde_run false g sf (tir_open, tde_new (g_frq g) (g_prx g)) [PSeek 1 (key 254 50)] with None => true | _ => false end | None => false end
      | _ => false end
    | None => false end = true) by (vm_compute; reflexivity).
  destruct (dw_add_docs ana1 norm1 zip1 1 2 10 (dw_open ifis) (key_docs 254)) as [s|]; [|discriminate]. destruct (dw_write 128 16 s) as [(g & [|])|] eqn:Ew; try discriminate. destruct (sfi_open (g_dict g)) as [sf|] eqn:Es; [|discriminate].
  destruct (tde_run false g sf (tir_open, tde_new (g_frq g) (g_prx g)) [PSeek 1 (key 254 50)]) eqn:Er; [discriminate|]. exists s, g, sf. splits; auto.
Qed.
Print Assumptions C74_255_refuted.
(* and a longer value is cut to 254 bytes: it is not found, its first 254 bytes are found in both documents. *)
Theorem C74_long_refuted : key_run 255 [PSeek 1 (key 255 50); PNext none] = Some [PUnit; PDoc None] /\
  key_run 255 [PSeek 1 (repeat 97 254); PNext none; PNext none; PNext none] = Some [PUnit; PDoc (Some (0, 1)); PDoc (Some (1, 1)); PDoc None].
Proof. split; vm_compute; reflexivity. Qed.
Print Assumptions C74_long_refuted.
