(* C21: the postings of a term over several segments. *)
From Verif Require Import Util Codec_Spec Seg_Model Strcmp Dict_Model Dict_Spec Post_Model Post_Spec PostRun_Proofs Multi_Model Mte_Model Mte_Spec Mtde_Model Mtde_Spec Mtde_Proofs.
Open Scope Z_scope.

(* For any segments, any map between field numbers and any history of seeks, nexts, skips and bulk reads with any deletions at every
   moment: the enumerator answers like a cursor on the joined list, as long as a seek finds something or comes when everything before
   has been read. *)
Theorem C21_docs_partial : forall mp vs gs os, Forall pseg_ok vs -> Forall2 popened vs gs -> field_in mp (length vs) 0 -> docs_ok mp vs ([], []) os ->
  exists m, mtde_new gs mp = Some m /\ mtde_run false gs (pstarts 0 vs) mp m os = Some (mspec_run mp vs ([], []) os).
Proof. exact docs_follow. Qed.
Print Assumptions C21_docs_partial.

(* With positions: the same for one seek on a new enumerator followed by any nexts, skips and positions. *)
Theorem C21_positions_partial : forall mp vs gs f t os, Forall pseg_ok vs -> Forall2 popened vs gs -> field_in mp (length vs) 0 -> field_in mp (length vs) f -> pos_ok (look mp vs f t, []) os ->
  exists m, mtde_new gs mp = Some m /\ mtde_run true gs (pstarts 0 vs) mp m (PSeek f t :: os) = Some (mspec_run mp vs ([], []) (PSeek f t :: os)).
Proof. exact positions_follow. Qed.
Print Assumptions C21_positions_partial.

(* The joined list: increasing, and exactly the postings of the segments shifted by their first documents. *)
Theorem C21_joined_list : forall mp vs f t, Forall pseg_ok vs -> StronglySorted (fun x y => fst x < fst y) (look mp vs f t) /\
  forall p, In p (look mp vs f t) <-> exists i v q, nth_error vs i = Some v /\ In q (within mp f i v t) /\ p = shift (nth i (pstarts 0 vs) 0) q.
Proof. exact joined_spec. Qed.
Print Assumptions C21_joined_list.

(* Every list of segments can be written and opened. *)
Theorem C21_segments_open : forall vs, Forall pseg_ok vs -> exists gs, Forall2 popened vs gs.
Proof. exact popened_all. Qed.
Print Assumptions C21_segments_open.

(* three segments of 10, 5 and 20 documents; field 1 is called 0 in the first, 3 in the second and is missing in the third *)
Definition c21_vs : list pseg :=
  [mkPseg 2 3 10 [(0, [([97], [(0, [5; 3]); (4, [9]); (5, [1]); (9, [])]); ([98], [(2, [1; 2])])])];
   mkPseg 1 4 5 [(3, [([97], [(1, [7]); (4, [8])]); ([99], [(0, [])])])];
   mkPseg 5 3 20 [(1, [([97], [(3, [0])])])]].
Definition c21_mp : option (list (list Z)) := Some [[-1; 0]; [-1; 3]; [1; -1]].
Lemma bound_of sz fs : forallb (fun x => forallb (fun y => forallb (fun p => fst p <? sz) (snd y)) (snd x)) fs = true -> forall f t, Forall (fun p : post => fst p < sz) (postings fs f t).
Proof.
  intros H f t. unfold postings. destruct (find (fun x => fst x =? f) fs) as [[k l]|] eqn:E1; [|constructor]. apply find_some in E1. destruct E1 as (E1 & _). rewrite forallb_forall in H. specialize (H _ E1). cbn [snd] in H.
  destruct (find (fun x => seqb (fst x) t) l) as [[u ps]|] eqn:E2; [|constructor]. apply find_some in E2. destruct E2 as (E2 & _). rewrite forallb_forall in H. specialize (H _ E2). cbn [snd] in H. rewrite forallb_forall in H. apply Forall_forall. intros p Hp. apply Z.ltb_lt. apply H. auto.
Qed.
Ltac inv_tac := unfold inv_ok; split; [repeat constructor; try (vm_compute; intuition congruence); try (unfold slt; vm_compute; intuition congruence)|split; [repeat constructor; cbn; intuition congruence|split; [cbn; lia|split; [cbn; lia|vm_compute; reflexivity]]]].
Lemma c21_ok : Forall pseg_ok c21_vs.
Proof.
  unfold c21_vs. constructor; [|constructor; [|constructor; [|constructor]]]; (split; [cbn; lia|split; [cbn; lia|split; [cbn; lia|split; [cbn; lia|split; [|split; [cbn; lia|apply bound_of; vm_compute; reflexivity]]]]]]; cbn [v_fs]; inv_tac).
Qed.
Lemma c21_fields : field_in c21_mp 3 0 /\ field_in c21_mp 3 1.
Proof. split; (split; [reflexivity|repeat constructor; cbn; lia]). Qed.
Definition popen1 (v : pseg) : list psrc := match dw_flush (Z.of_nat (v_int v)) (Z.of_nat (v_kn v)) (v_fs v) with Some g => match sfi_open (g_dict g) with Some s => [(g, s)] | None => [] end | None => [] end.
Lemma popen1_ok vs : forallb (fun x => match popen1 x with [] => false | _ => true end) vs = true -> Forall2 popened vs (flat_map popen1 vs).
Proof.
  induction vs as [|x vs IH]; cbn [forallb flat_map]; intros H; [constructor|]. apply andb_true_iff in H. destruct H as [H1 H2]. unfold popen1 in H1. unfold popen1 at 1. destruct (dw_flush _ _ _) as [f|] eqn:E1; [|discriminate]. destruct (sfi_open (g_dict f)) as [s|] eqn:E2; [|discriminate].
  constructor; [split; auto|apply IH; auto].
Qed.
Definition c21_gs : list psrc := flat_map popen1 c21_vs.
Lemma c21_opened : Forall2 popened c21_vs c21_gs.
Proof. apply popen1_ok. vm_compute. reflexivity. Qed.
Definition c21_run (pos : bool) (os : list pop) : option (list pres) := match mtde_new c21_gs c21_mp with Some m => mtde_run pos c21_gs (pstarts 0 c21_vs) c21_mp m os | None => None end.
Lemma c21_run_inv pos os l : c21_run pos os = Some l -> exists m, mtde_new c21_gs c21_mp = Some m /\ mtde_run pos c21_gs (pstarts 0 c21_vs) c21_mp m os = Some l.
Proof. unfold c21_run. generalize c21_gs. intros gs. destruct (mtde_new gs c21_mp) as [m|]; [|discriminate]. eauto. Qed.
Definition c21_none (d : Z) : bool := false.
Example C21_docs_example : c21_run false [PSeek 1 [97]; PNext c21_none; PSkip (Z.eqb 11) 6; PSkip (Z.eqb 11) 10; PNext c21_none; PSeek 1 [97]; PRead (Z.eqb 4) 4; PRead c21_none 4; PSeek 1 [120]; PNext c21_none; PSeek 0 [97]; PRead c21_none 3] =
  Some [PUnit; PDoc (Some (0, 2)); PDoc (Some (9, 0)); PDoc (Some (14, 1)); PDoc None; PUnit; PDocs [(0, 2); (5, 1); (9, 0); (11, 1)]; PDocs [(14, 1)]; PUnit; PDoc None; PUnit; PDocs [(18, 1)]].
Proof. vm_compute. reflexivity. Qed.
Example C21_docs_ok_example : docs_ok c21_mp c21_vs ([], []) [PSeek 1 [97]; PNext c21_none; PSkip (Z.eqb 11) 6; PSkip (Z.eqb 11) 10; PNext c21_none; PSeek 1 [97]; PRead (Z.eqb 4) 4; PRead c21_none 4; PSeek 1 [120]; PNext c21_none; PSeek 0 [97]; PRead c21_none 3].
Proof. pose proof c21_fields as (H0 & H1). cbn [docs_ok length c21_vs]. repeat split; auto; try lia; try (apply H0); try (apply H1); try (left; vm_compute; discriminate); right; vm_compute; reflexivity. Qed.
Example C21_positions_example : c21_run true [PSeek 1 [97]; PNext c21_none; PPos; PNext c21_none; PPos; PSkip c21_none 12; PPos] = Some [PUnit; PDoc (Some (0, 2)); PPosn 5; PDoc (Some (4, 1)); PPosn 9; PDoc (Some (14, 1)); PPosn 8].
Proof. vm_compute. reflexivity. Qed.
Example C21_list_example : look c21_mp c21_vs 1 [97] = [(0, [5; 3]); (4, [9]); (5, [1]); (9, []); (11, [7]); (14, [8])].
Proof. vm_compute. reflexivity. Qed.

(* Seeking a term that occurs nowhere: mtde_seek clears the states, but not curr_tde.  The documents of the term before go on. *)
Definition c21_stale : list pop := [PSeek 1 [97]; PNext c21_none; PSeek 1 [120]; PNext c21_none; PNext c21_none].
Lemma c21_stale_run : exists m, mtde_new c21_gs c21_mp = Some m /\ mtde_run false c21_gs (pstarts 0 c21_vs) c21_mp m c21_stale = Some [PUnit; PDoc (Some (0, 2)); PUnit; PDoc (Some (4, 1)); PDoc (Some (5, 1))].
Proof. apply c21_run_inv. vm_compute. reflexivity. Qed.
Theorem C21_absent_term_refuted : exists mp vs gs f t u, Forall pseg_ok vs /\ Forall2 popened vs gs /\ field_in mp (length vs) 0 /\ field_in mp (length vs) f /\ look mp vs f u = [] /\
  exists m, mtde_new gs mp = Some m /\ exists d r, mtde_run false gs (pstarts 0 vs) mp m [PSeek f t; PNext c21_none; PSeek f u; PNext c21_none; PNext c21_none] = Some [PUnit; r; PUnit; PDoc (Some (4, 1)); d] /\
    mspec_run mp vs ([], []) [PSeek f t; PNext c21_none; PSeek f u; PNext c21_none; PNext c21_none] = [PUnit; r; PUnit; PDoc None; PDoc None].
Proof.
  pose proof c21_ok as H1. pose proof c21_opened as H2. pose proof c21_fields as (H3 & H4). pose proof c21_stale_run as H5. revert H2 H5. generalize c21_gs. intros gs H2 (m & E1 & E2).
  exists c21_mp, c21_vs, gs, 1, [97], [120]. split; [exact H1|]. split; [exact H2|]. split; [exact H3|]. split; [exact H4|]. split; [vm_compute; reflexivity|]. exists m. split; [exact E1|]. eexists _, _. split; [exact E2|]. vm_compute. reflexivity.
Qed.
Print Assumptions C21_absent_term_refuted.

(* Positions after a second seek: stpe_seek_ti keeps the number of positions that were not read for the term before, so as many positions
   of the new term are lost. *)
Definition c21_reseek : list pop := [PSeek 1 [98]; PNext c21_none; PSeek 1 [97]; PNext c21_none; PPos].
Lemma c21_reseek_run : exists m, mtde_new c21_gs c21_mp = Some m /\ mtde_run true c21_gs (pstarts 0 c21_vs) c21_mp m c21_reseek = Some [PUnit; PDoc (Some (2, 2)); PUnit; PDoc (Some (0, 2)); PPosn 9].
Proof. apply c21_run_inv. vm_compute. reflexivity. Qed.
Theorem C21_reseek_positions_refuted : exists mp vs gs, Forall pseg_ok vs /\ Forall2 popened vs gs /\ field_in mp (length vs) 0 /\ field_in mp (length vs) 1 /\
  exists m, mtde_new gs mp = Some m /\ mtde_run true gs (pstarts 0 vs) mp m c21_reseek = Some [PUnit; PDoc (Some (2, 2)); PUnit; PDoc (Some (0, 2)); PPosn 9] /\
    mspec_run mp vs ([], []) c21_reseek = [PUnit; PDoc (Some (2, 2)); PUnit; PDoc (Some (0, 2)); PPosn 5].
Proof.
  pose proof c21_ok as H1. pose proof c21_opened as H2. pose proof c21_fields as (H3 & H4). pose proof c21_reseek_run as H5. revert H2 H5. generalize c21_gs. intros gs H2 (m & E1 & E2).
  exists c21_mp, c21_vs, gs. split; [exact H1|]. split; [exact H2|]. split; [exact H3|]. split; [exact H4|]. exists m. split; [exact E1|]. split; [exact E2|]. vm_compute. reflexivity.
Qed.
Print Assumptions C21_reseek_positions_refuted.
