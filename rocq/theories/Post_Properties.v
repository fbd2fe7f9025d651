(* C17, C18, C19, C60: the postings of a segment. *)
From Verif Require Import Util Codec_Spec Seg_Model Strcmp Dict_Model Dict_Spec Post_Model Post_Spec PostRun_Proofs.
Open Scope Z_scope.

(* For any fields, any increasing terms, any postings (any increasing documents below 2^30, any positions), any intervals: the segment can
   be written and opened; seeking any term and reading document after document with all positions gives exactly the indexed postings,
   in order, and then the end. *)
Theorem C17_postings_round_trip : forall I kn fs, (1 <= I)%nat -> Z.of_nat I < 2 ^ 31 -> (1 <= kn)%nat -> Z.of_nat kn < 2 ^ 31 -> inv_ok fs ->
  exists g s, dw_flush (Z.of_nat I) (Z.of_nat kn) fs = Some g /\ sfi_open (g_dict g) = Some s /\
    forall f t, tde_run true g s (tir_open, tde_new (g_frq g) (g_prx g)) (PSeek f t :: walk (postings fs f t)) = Some (PUnit :: walked (postings fs f t)).
Proof. exact enumeration. Qed.
Print Assumptions C17_postings_round_trip.

(* Any history of seeks, nexts, bulk reads, positions (some read, some not) and, from skip interval 3 on, skips, on either kind of
   enumerator, with any deletions at every moment, answers like a cursor on the list of postings. *)
Theorem C17_any_history : forall I kn fs, (1 <= I)%nat -> Z.of_nat I < 2 ^ 31 -> (1 <= kn)%nat -> Z.of_nat kn < 2 ^ 31 -> inv_ok fs ->
  exists g s, dw_flush (Z.of_nat I) (Z.of_nat kn) fs = Some g /\ sfi_open (g_dict g) = Some s /\
    forall pos os, Forall (okop kn pos) os -> tde_run pos g s (tir_open, tde_new (g_frq g) (g_prx g)) os = Some (pspec_run fs ([], []) os).
Proof. exact post_run. Qed.
Print Assumptions C17_any_history.

Definition c17_none (d : Z) : bool := false.
Definition c17_posts (l : list Z) : list post := map (fun d => (d, repeat 7 (Z.to_nat (d mod 3)))) l.
Definition c17_fs : list (Z * list (list Z * list post)) :=
  [(2, [([97], [(0, [5; 3]); (300, [9]); (70000, [])]); ([97; 98], c17_posts [0; 1; 2; 3; 4; 5; 6; 7; 8; 9; 10; 200; 201; 300])]); (0, [([], [(4, [0])])])].
Definition c17_run (k : Z) (pos : bool) (os : list pop) : option (list pres) :=
  match dw_flush 2 k c17_fs with
  | Some g => match sfi_open (g_dict g) with Some s => tde_run pos g s (tir_open, tde_new (g_frq g) (g_prx g)) os | None => None end
  | None => None end.
Lemma c17_ok : inv_ok c17_fs.
Proof.
  assert (Hsl : forall a b, slt a b -> True) by auto.
  unfold inv_ok. split; [|split; [|split; [|split]]].
  - repeat constructor; try (vm_compute; intuition congruence); try (unfold slt; vm_compute; intuition congruence).
  - repeat constructor; cbn; intuition congruence.
  - cbn. lia.
  - cbn. lia.
  - vm_compute. reflexivity.
Qed.
Example C17_example : c17_run 3 true [PSeek 2 [97]; PNext c17_none; PPos; PPos; PPos; PNext c17_none; PNext c17_none; PPos; PNext c17_none; PSeek 0 []; PNext c17_none; PPos; PSeek 0 [97]; PNext c17_none]
  = Some [PUnit; PDoc (Some (0, 2)); PPosn 5; PPosn 3; PPosn (-1); PDoc (Some (300, 1)); PDoc (Some (70000, 0)); PPosn (-1); PDoc None; PUnit; PDoc (Some (4, 1)); PPosn 0; PUnit; PDoc None].
Proof. vm_compute. reflexivity. Qed.

(* skip_to is the first remaining document that is not deleted and not below the target, whatever has been done before. *)
Theorem C18_skip_to_partial : forall I kn fs, (1 <= I)%nat -> Z.of_nat I < 2 ^ 31 -> (3 <= kn)%nat -> Z.of_nat kn < 2 ^ 31 -> inv_ok fs ->
  exists g s, dw_flush (Z.of_nat I) (Z.of_nat kn) fs = Some g /\ sfi_open (g_dict g) = Some s /\
    forall pos os, Forall (pop_ok pos) os -> tde_run pos g s (tir_open, tde_new (g_frq g) (g_prx g)) os = Some (pspec_run fs ([], []) os).
Proof. exact skips. Qed.
Print Assumptions C18_skip_to_partial.
Example C18_example :
  c17_run 3 true [PSeek 2 [97; 98]; PSkip (Z.eqb 5) 5; PPos; PSkip (Z.eqb 5) 6; PNext c17_none; PSkip (Z.eqb 200) 11; PSkip c17_none 301]
  = Some [PUnit; PDoc (Some (6, 0)); PPosn (-1); PDoc (Some (7, 1)); PDoc (Some (8, 2)); PDoc (Some (201, 0)); PDoc None].
Proof. vm_compute. reflexivity. Qed.
(* With skip interval 2 (the interval is an option of the index writer) a skip point behind document 0 alone is not counted, the count
   stays too low and the enumerator reads on into the skip data: the last document comes three times. *)
Definition c18_fs : list (Z * list (list Z * list post)) := [(0, [([97], map (fun d => (d, [0])) [0; 1; 2; 3; 4; 5; 6])])].
Definition c18_ops : list pop := [PSeek 0 [97]; PSkip c17_none 5; PNext c17_none; PNext c17_none; PNext c17_none; PNext c17_none].
Theorem C18_small_interval_refuted : exists g s rs, dw_flush 2 2 c18_fs = Some g /\ sfi_open (g_dict g) = Some s /\ inv_ok c18_fs /\
  tde_run false g s (tir_open, tde_new (g_frq g) (g_prx g)) c18_ops = Some rs /\
  rs = [PUnit; PDoc (Some (5, 1)); PDoc (Some (6, 1)); PDoc (Some (6, 1)); PDoc (Some (6, 1)); PDoc None] /\
  pspec_run c18_fs ([], []) c18_ops = [PUnit; PDoc (Some (5, 1)); PDoc (Some (6, 1)); PDoc None; PDoc None; PDoc None].
Proof.
  eexists _, _, _. split; [vm_compute; reflexivity|]. split; [vm_compute; reflexivity|]. split.
  - unfold inv_ok. split; [|split; [|split; [|split]]].
    + repeat constructor; try (vm_compute; intuition congruence).
    + repeat constructor; cbn; intuition congruence.
    + cbn. lia.
    + cbn. lia.
    + vm_compute. reflexivity.
  - split; [vm_compute; reflexivity|]. split; [reflexivity|]. vm_compute. reflexivity.
Qed.
Print Assumptions C18_small_interval_refuted.

(* An enumerator made from a reader that has deletions already, or never gets any: whatever is deleted between its operations, it never
   returns a document deleted by then, and loses no other. *)
Theorem C19_deletions_partial : forall I kn fs, (1 <= I)%nat -> Z.of_nat I < 2 ^ 31 -> (3 <= kn)%nat -> Z.of_nat kn < 2 ^ 31 -> inv_ok fs ->
  exists g s, dw_flush (Z.of_nat I) (Z.of_nat kn) fs = Some g /\ sfi_open (g_dict g) = Some s /\
    forall pos r dl os,
      (match d_cur r with Some i => nth_error (d_cells r) i = Some (Some dl) | None => dl = [] end) ->
      ~ In RUndelete os -> (d_cur r = None -> forall d, ~ In (RDelete d) os) ->
      Forall (pop_ok pos) (spec_resolve dl os) ->
      exists ps, resolve r (d_cur r) os = Some ps /\
        tde_run pos g s (tir_open, tde_new (g_frq g) (g_prx g)) ps = Some (pspec_run fs ([], []) (spec_resolve dl os)).
Proof. exact deletions. Qed.
Print Assumptions C19_deletions_partial.
Example C19_example :
  match resolve (mkSrd [Some [1]] (Some O)) (Some O) [ROp (fun _ => PSeek 2 [97; 98]); ROp PNext; RDelete 3; RDelete 2; ROp PNext; ROp (fun d => PSkip d 4); RDelete 6; ROp (fun d => PRead d 2)] with
  | Some ps => c17_run 3 false ps | None => None end
  = Some [PUnit; PDoc (Some (0, 0)); PDoc (Some (4, 1)); PDoc (Some (5, 2)); PDocs [(7, 1); (8, 2)]].
Proof. vm_compute. reflexivity. Qed.
(* An enumerator made while the reader has no deletions keeps a null pointer: a document deleted later, before the enumeration starts,
   is returned. *)
Theorem C19_first_deletion_refuted : exists os ps rs, resolve (mkSrd [] None) None os = Some ps /\ os = RDelete 1 :: map (fun o => ROp o) [fun _ => PSeek 2 [97; 98]; PNext; PNext] /\
  c17_run 3 false ps = Some rs /\ rs = [PUnit; PDoc (Some (0, 0)); PDoc (Some (1, 1))] /\
  pspec_run c17_fs ([], []) (spec_resolve [] os) = [PUnit; PDoc (Some (0, 0)); PDoc (Some (2, 2))].
Proof.
  eexists _, _, _. split; [|split; [reflexivity|]]; [cbn; reflexivity|]. split; [vm_compute; reflexivity|]. split; [reflexivity|]. vm_compute. reflexivity.
Qed.
Print Assumptions C19_first_deletion_refuted.
(* undelete_all frees the bit vector an enumerator points to: its next step reads freed memory. *)
Theorem C19_undelete_refuted : forall r dl i o, d_cur r = Some i -> nth_error (d_cells r) i = Some (Some dl) -> resolve r (d_cur r) [RUndelete; ROp o] = None.
Proof. exact undelete_frees. Qed.
Print Assumptions C19_undelete_refuted.
Example C19_undelete_example : resolve (mkSrd [Some [1]] (Some O)) (Some O) [ROp PNext; RUndelete; ROp PNext] = None.
Proof. reflexivity. Qed.

(* C60: whatever a position enumerator has read before, seeking a term by name gives the positions of that term. *)
Theorem C60_seek_by_name : forall I kn fs, (1 <= I)%nat -> Z.of_nat I < 2 ^ 31 -> (3 <= kn)%nat -> Z.of_nat kn < 2 ^ 31 -> inv_ok fs ->
  exists g s, dw_flush (Z.of_nat I) (Z.of_nat kn) fs = Some g /\ sfi_open (g_dict g) = Some s /\
    forall os f t, Forall (pop_ok true) os -> exists rs,
      tde_run true g s (tir_open, tde_new (g_frq g) (g_prx g)) (os ++ PSeek f t :: walk (postings fs f t)) = Some (rs ++ PUnit :: walked (postings fs f t)) /\ length rs = length os.
Proof. exact reseek. Qed.
Print Assumptions C60_seek_by_name.
Example C60_example : c17_run 3 true [PSeek 2 [97]; PNext c17_none; PPos; PSeek 2 [97; 98]; PNext c17_none; PNext c17_none; PPos]
  = Some [PUnit; PDoc (Some (0, 2)); PPosn 5; PUnit; PDoc (Some (0, 0)); PDoc (Some (1, 1)); PPosn 7].
Proof. vm_compute. reflexivity. Qed.
(* Moved by a term enumerator that stands on the term, the same enumerator leaves the position file where it was: the first document of
   "b", with position 7, is reported with position 5, which belongs to "a". *)
Definition c60_fs : list (Z * list (list Z * list post)) := [(0, [([97], [(0, [5])]); ([98], [(0, [7])])])].
Theorem C60_seek_by_enumerator_refuted : exists g s t b e1 e2 p, dw_flush 2 3 c60_fs = Some g /\ sfi_open (g_dict g) = Some s /\
  ste_run (g_dict g) s ste_new [DField 0; DLookup [98]] = Some [DDone; DInfo (Some t)] /\ postings c60_fs 0 [98] = [(0, [7])] /\
  tde_next true c17_none (tde_seek_te (g_frq g) (s_skip s) (tde_new (g_frq g) (g_prx g)) t) = Some (b, e1) /\ b = true /\ p_doc e1 = 0 /\ p_freq e1 = 1 /\
  next_position e1 = Some (p, e2) /\ p = 5.
Proof.
  eexists _, _, _, _, _, _, _. split; [vm_compute; reflexivity|]. split; [vm_compute; reflexivity|]. split; [vm_compute; reflexivity|]. split; [reflexivity|].
  split; [vm_compute; reflexivity|]. split; [reflexivity|]. split; [reflexivity|]. split; [reflexivity|]. split; [vm_compute; reflexivity|]. reflexivity.
Qed.
Print Assumptions C60_seek_by_enumerator_refuted.
