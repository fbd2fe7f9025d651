(* C23: merging segments. *)
From Verif Require Import Util Codec_Model Codec_Spec Seg_Model Strcmp Dict_Model Dict_Spec Post_Model Post_Spec PostRun_Proofs Multi_Model Merge_Model Merge_Spec MergeRun_Proofs MergeDocs_Proofs MergeCheck.
Open Scope Z_scope.

(* For any number of segments with any deletions, any fields, terms and postings, any intervals of the segments and of the new one: if the
   terms leave the term buffer of the merger room (up to 252 bytes at the default interval) and the sizes fit their types, the merged
   segment is written and can be opened; every term of every field has in it exactly the postings of the documents that are not deleted, in
   the order of the segments, numbered through; any history of an enumerator on it answers as on that index; and the result is again such a
   segment, ready to be merged, whatever the buffer contained. *)
Theorem C23_postings_partial : forall I kn buf0 nf ss xs, (1 <= I)%nat -> Z.of_nat I < 2 ^ 31 -> (1 <= kn)%nat -> Z.of_nat kn < 2 ^ 31 -> Forall mseg_ok ss -> Forall2 lays ss xs -> Forall (short I) ss -> fits nf ss -> length buf0 = buf_alloc I ->
  exists x, sm_merge_terms I (Z.of_nat kn) buf0 nf xs = Some (i_seg x) /\ mseg_ok (mkMseg (merged nf ss) (total ss) None) /\ lays (mkMseg (merged nf ss) (total ss) None) x /\
    (forall pos os, Forall (okop kn pos) os -> tde_run pos (i_seg x) (i_sfi x) (tir_open, tde_new (g_frq (i_seg x)) (g_prx (i_seg x))) os = Some (pspec_run (merged nf ss) ([], []) os)) /\
    forall f t, 0 <= f < Z.of_nat nf -> tde_run true (i_seg x) (i_sfi x) (tir_open, tde_new (g_frq (i_seg x)) (g_prx (i_seg x))) (PSeek f t :: walk (gather O ss f t)) = Some (PUnit :: walked (gather O ss f t)).
Proof. exact merge_run. Qed.
Print Assumptions C23_postings_partial.
(* the terms of the merged segment: those of a document that is not deleted *)
Theorem C23_terms : forall ss n t, In t (map fst (merged_field ss n)) <-> exists s p, In s ss /\ In p (postings (s_fs s) n t) /\ dead s (fst p) = false.
Proof. exact merged_terms. Qed.
Print Assumptions C23_terms.

Definition c23_del (d : Z) : bool := (d =? 0) || (d =? 2).
Definition c23_a : mseg := mkMseg [(0, [([97], [(0, [1]); (1, [2; 5])]); ([98], [(0, [3]); (2, [4])])])] 4 (Some c23_del).
Definition c23_b : mseg := mkMseg [(0, [([97], [(0, [7])]); ([99], [(2, [0])])]); (1, [([97; 98], [(1, [])])])] 3 None.
Definition c23_open (s : mseg) : list min_ :=
  match dw_flush 128 16 (s_fs s) with Some g => match sfi_open (g_dict g) with Some f => [mkMin g f (s_max s) (s_del s)] | None => [] end | None => [] end.
Lemma c23_open_ok s x : c23_open s = [x] -> lays s x.
Proof.
  unfold c23_open. destruct (dw_flush 128 16 (s_fs s)) as [g|] eqn:E1; [|discriminate]. destruct (sfi_open (g_dict g)) as [f|] eqn:E2; [|discriminate]. intros E. apply (f_equal (hd x)) in E. cbn [hd] in E. subst x. split; [|cbn [i_seg i_sfi i_max i_del]; auto].
  exists 128%nat, 16%nat. cbn [i_seg]. split; [lia|]. split; [reflexivity|]. split; [lia|]. split; [reflexivity|exact E1].
Qed.
Definition c23_run (ss : list mseg) (f : Z) (t : list Z) (ps : list post) : option (list pres) :=
  do g <- sm_merge_terms 128 16 (repeat 0 (buf_alloc 128)) 2 (flat_map c23_open ss);
  do s <- sfi_open (g_dict g);
  tde_run true g s (tir_open, tde_new (g_frq g) (g_prx g)) (PSeek f t :: walk ps).
Example c23_ex : Forall mseg_ok [c23_a; c23_b] /\ fits 2 [c23_a; c23_b] /\ Forall (short 128) [c23_a; c23_b] /\ merged 2 [c23_a; c23_b] = [(0, [([97], [(0, [2; 5]); (2, [7])]); ([99], [(4, [0])])]); (1, [([97; 98], [(3, [])])])] /\
  c23_run [c23_a; c23_b] 0 [97] [(0, [2; 5]); (2, [7])] = Some [PUnit; PDoc (Some (0, 2)); PPosn 2; PPosn 5; PDoc (Some (2, 1)); PPosn 7; PDoc None] /\ c23_run [c23_a; c23_b] 0 [98] [] = Some [PUnit; PDoc None].
Proof.
  split; [repeat (apply Forall_cons; [apply mseg_b_ok; vm_compute; reflexivity|]); apply Forall_nil|]. split; [apply fits_b_ok; vm_compute; reflexivity|]. split; [repeat (apply Forall_cons; [apply short_b_ok; vm_compute; reflexivity|]); apply Forall_nil|].
  split; [vm_compute; reflexivity|]. split; vm_compute; reflexivity.
Qed.
Example c23_files_ex : exists xs, Forall2 lays [c23_a; c23_b] xs.
Proof.
  destruct (c23_open c23_a) as [|x [|? ?]] eqn:Ea; [vm_compute in Ea; discriminate| |exfalso; unfold c23_open in Ea; destruct (dw_flush _ _ _) as [g|]; [destruct (sfi_open _)|]; discriminate].
  destruct (c23_open c23_b) as [|y [|? ?]] eqn:Eb; [vm_compute in Eb; discriminate| |exfalso; unfold c23_open in Eb; destruct (dw_flush _ _ _) as [g|]; [destruct (sfi_open _)|]; discriminate].
  exists [x; y]. constructor; [apply c23_open_ok; exact Ea|]. constructor; [apply c23_open_ok; exact Eb|constructor].
Qed.

(* With long terms the claim fails, at the default intervals: the merger keeps the last terms in a buffer for 129 terms of 255 bytes and
   starts over when it is full; a long term can then be written over the term the index writer still points to, and the next index term is
   written relative to what is there now.  Behind the wrong index term, lookups miss the terms: here the last 128 but one of 385. *)
Definition c23_term (i : nat) : list Z :=
  let key := [Z.of_nat (1 + i / 200); Z.of_nat (1 + i mod 200)] in
  if (i <? 253)%nat then key ++ repeat 99 127
  else if (i =? 254)%nat then key ++ repeat 99 7
  else if (i =? 384)%nat then key ++ repeat 99 8 ++ [2; 184] ++ repeat 99 2
  else key ++ repeat 99 252.
Definition c23_long : mseg := mkMseg [(0, map (fun i => (c23_term i, [(0, [Z.of_nat i])])) (seq 0 385))] 1 None.
Definition c23_look (x : min_) (i : nat) : option (list pres) := tde_run true (i_seg x) (i_sfi x) (tir_open, tde_new (g_frq (i_seg x)) (g_prx (i_seg x))) [PSeek 0 (c23_term i); PNext (fun _ => false)].
Lemma c23_long_run : match c23_open c23_long with
  | [x] => match sm_merge_terms 128 16 (repeat 0 (buf_alloc 128)) 1 [x] with
           | Some g => match sfi_open (g_dict g) with
                       | Some s => (c23_look x 300, c23_look x 383, c23_look (mkMin g s 1 None) 300, c23_look (mkMin g s 1 None) 383) =
                                   (Some [PUnit; PDoc (Some (0, 1))], Some [PUnit; PDoc (Some (0, 1))], Some [PUnit; PDoc None], Some [PUnit; PDoc None])
                       | None => False end
           | None => False end
  | _ => False end.
Proof. vm_compute. reflexivity. Qed.
Theorem C23_long_terms_refuted : exists s x g f, mseg_ok s /\ lays s x /\ fits 1 [s] /\ sm_merge_terms 128 16 (repeat 0 (buf_alloc 128)) 1 [x] = Some g /\ sfi_open (g_dict g) = Some f /\
  forall i, i = 300%nat \/ i = 383%nat -> gather O [s] 0 (c23_term i) = [(0, [Z.of_nat i])] /\ c23_look x i = Some [PUnit; PDoc (Some (0, 1))] /\ c23_look (mkMin g f 1 None) i = Some [PUnit; PDoc None].
Proof.
  pose proof c23_long_run as H. destruct (c23_open c23_long) as [|x [|? ?]] eqn:Ex; try contradiction. destruct (sm_merge_terms 128 16 (repeat 0 (buf_alloc 128)) 1 [x]) as [g|] eqn:Eg; [|contradiction]. destruct (sfi_open (g_dict g)) as [f|] eqn:Ef; [|contradiction].
  exists c23_long, x, g, f. split; [apply mseg_b_ok; vm_compute; reflexivity|]. split; [apply c23_open_ok; exact Ex|]. split; [apply fits_b_ok; vm_compute; reflexivity|]. split; [exact Eg|]. split; [exact Ef|].
  apply pair_equal_spec in H. destruct H as (H & H4). apply pair_equal_spec in H. destruct H as (H & H3). apply pair_equal_spec in H. destruct H as (H1 & H2).
  intros i [->|Hi]; [|subst i]; (split; [vm_compute; reflexivity|]; split; assumption).
Qed.
Print Assumptions C23_long_terms_refuted.

(* The stored documents of the merged segment are those that are not deleted, byte for byte, in order, behind an index that finds each;
   document d that is not deleted becomes document rank d of its segment's part. *)
Theorem C23_documents : forall xs : list dsrc, Forall (fun x => Forall doc_ok (fst x) /\ Z.of_nat (length (fdt_of (fst x))) < 2 ^ 63) xs ->
  sm_merge_fields (map dfiles_of xs) [] [] = Some (fdt_of (flat_map (fun x => live_of (ddel x) (fst x)) xs), fdx_of O (flat_map (fun x => live_of (ddel x) (fst x)) xs)).
Proof. intros xs H. exact (merge_docs_ok xs H []). Qed.
Print Assumptions C23_documents.
Theorem C23_document_found : forall ds j d, Forall doc_ok ds -> Z.of_nat (length (fdt_of ds)) < 2 ^ 63 -> nth_error ds j = Some d ->
  exists off r1 r2, dec_u64 (seek (fdx_of O ds) (Z.of_nat (12 * j))) = ROk off r1 /\ dec_u32 r1 = ROk (snd d) r2 /\ firstn (length (fst d)) (seek (fdt_of ds) off) = fst d.
Proof. exact read_doc. Qed.
Print Assumptions C23_document_found.
Theorem C23_document_number : forall A del (l : list A), length (live_of del l) = rank del (length l) /\ forall j x, nth_error l j = Some x -> del (Z.of_nat j) = false -> nth_error (live_of del l) (rank del j) = Some x.
Proof. intros A del l. split; [apply live_len|intros; apply live_nth; auto]. Qed.
Print Assumptions C23_document_number.
Example c23_docs_ex : sm_merge_fields (map dfiles_of [([([1; 2; 3], 2); ([], 0); ([4], 1)], Some (fun d => d =? 0)); ([([7; 8], 1)], None)]) [] [] = Some ([4; 7; 8], fdx_of O [([], 0); ([4], 1); ([7; 8], 1)]).
Proof. vm_compute. reflexivity. Qed.

(* The norms of a field are those of the documents that are not deleted, zero for the segments without norms for it. *)
Theorem C23_norms : forall xs, Forall (fun x : nseg => length (norms_of x) = snd (fst x)) xs -> sm_merge_norms xs = Some (flat_map (fun x => live_of (ndel x) (norms_of x)) xs).
Proof. exact merge_norms_ok. Qed.
Print Assumptions C23_norms.
Example c23_norms_ex : sm_merge_norms [(Some [10; 11; 12], 3%nat, Some (fun d => d =? 1)); (None, 2%nat, Some (fun d => d =? 0)); (Some [13], 1%nat, None)] = Some [10; 12; 0; 13].
Proof. vm_compute. reflexivity. Qed.
