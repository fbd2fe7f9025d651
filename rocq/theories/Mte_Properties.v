(* C22: terms over several segments. *)
From Verif Require Import Util Codec_Spec Strcmp Dict_Model Dict_Spec DictCursor_Proofs PQueue_Model Multi_Model Mte_Model Mte_Spec Mte_Proofs.
Open Scope Z_scope.

(* For any segments, any map between field numbers and any history of field changes, nexts and seeks: the enumerator answers like one
   list of terms, with the sums of the document frequencies. *)
Theorem C22_merged_terms : forall mp xs srcs f os, Forall sgm_ok xs -> Forall2 opened xs srcs -> field_in mp (length xs) f -> Forall (qop_ok mp (length xs)) os ->
  exists m, mte_new srcs mp f None = Some (None, m) /\ mte_run srcs mp m os = Some (qspec_run mp xs (f, O) os).
Proof. exact merged_terms. Qed.
Print Assumptions C22_merged_terms.

(* That list is increasing, so without duplicates, and holds exactly the terms of the segments. *)
Theorem C22_merged_list : forall ls, StronglySorted slt (union ls) /\ forall t, In t (union ls) <-> exists l, In l ls /\ In t (map fst l).
Proof. exact union_spec. Qed.
Print Assumptions C22_merged_list.

(* The same for an enumerator that starts at a term that is not empty, or at the empty one if no segment has that as a term. *)
Theorem C22_merged_from : forall mp xs srcs f t os, Forall sgm_ok xs -> Forall2 opened xs srcs -> field_in mp (length xs) f -> Forall (qop_ok mp (length xs)) os -> (t <> [] \/ ~ In [] (union (lists mp f O xs))) ->
  exists r, mte_new srcs mp f (Some t) = Some r /\ option_map (cons (seen r)) (mte_run srcs mp (snd r) os) = Some (qspec_run mp xs (f, O) (QScan t :: os)).
Proof. exact merged_from. Qed.
Print Assumptions C22_merged_from.

(* Every segment list can be written and opened, so the theorems are about something. *)
Theorem C22_segments_open : forall xs, Forall sgm_ok xs -> exists srcs, Forall2 opened xs srcs.
Proof. exact opened_all. Qed.
Print Assumptions C22_segments_open.

(* The document frequency of a term over all segments. *)
Theorem C22_doc_freq : forall mp xs srcs f t, Forall sgm_ok xs -> Forall2 opened xs srcs -> field_in mp (length xs) f ->
  mr_doc_freq O srcs mp f t = Some (freq_sum (lists mp f O xs) t).
Proof. exact merged_doc_freq. Qed.
Print Assumptions C22_doc_freq.

(* three segments; field 1 is called 0 in the first, 3 in the second and is missing in the third, field 0 is the other way around *)
Definition c22_a : list (Z * list entry) := [(0, [([], mkTi 1 0 0 0); ([97], mkTi 20 3 4 7); ([98], mkTi 1 30 40 0)])].
Definition c22_b : list (Z * list entry) := [(3, [([97], mkTi 5 31 44 0); ([97; 98], mkTi 16 40 50 2); ([99], mkTi 2 60 60 0)])].
Definition c22_c : list (Z * list entry) := [(1, [([120], mkTi 4 0 0 0)])].
Definition c22_xs : list sgm := [mkSgm 2 16 c22_a; mkSgm 1 16 c22_b; mkSgm 5 16 c22_c].
Definition c22_mp : option (list (list Z)) := Some [[-1; 0]; [2; 3]; [1; -1]].
Example C22_ok_example : Forall sgm_ok c22_xs /\ field_in c22_mp 3 0 /\ field_in c22_mp 3 1.
Proof.
  split; [|split; [split; [reflexivity|repeat constructor; cbn; lia]|split; [reflexivity|repeat constructor; cbn; lia]]].
  unfold c22_xs. constructor; [|constructor; [|constructor; [|constructor]]]; (split; [cbn; lia|split; [cbn; lia|split; [cbn; lia|]]]; cbn [g_fs]; unfold dict_ok; split; [|split; [repeat constructor; cbn; intuition discriminate|split; cbn; lia]]; repeat constructor; cbn; try lia; try reflexivity).
Qed.
Definition open1 (x : sgm) : list src := match write_dict (Z.of_nat (g_int x)) (g_skip x) (g_fs x) with Some f => match sfi_open f with Some s => [(f, s)] | None => [] end | None => [] end.
Lemma open1_ok xs : forallb (fun x => match open1 x with [] => false | _ => true end) xs = true -> Forall2 opened xs (flat_map open1 xs).
Proof.
  induction xs as [|x xs IH]; cbn [forallb flat_map]; intros H; [constructor|]. apply andb_true_iff in H. destruct H as [H1 H2]. unfold open1 in H1. unfold open1 at 1. destruct (write_dict _ _ _) as [f|] eqn:E1; [|discriminate]. destruct (sfi_open f) as [s|] eqn:E2; [|discriminate].
  constructor; [split; auto|apply IH; auto].
Qed.
Definition c22_srcs : list src := flat_map open1 c22_xs.
Definition c22_run (f : Z) (t : option (list Z)) (os : list qop) : option (list qres) :=
  match mte_new c22_srcs c22_mp f t with Some r => option_map (cons (seen r)) (mte_run c22_srcs c22_mp (snd r) os) | None => None end.
Lemma c22_run_inv f t os l : c22_run f t os = Some l -> exists r rs, mte_new c22_srcs c22_mp f t = Some r /\ mte_run c22_srcs c22_mp (snd r) os = Some rs /\ seen r :: rs = l.
Proof.
  unfold c22_run. generalize c22_srcs. intros srcs. destruct (mte_new srcs c22_mp f t) as [r|]; [|discriminate]. destruct (mte_run srcs c22_mp (snd r) os) as [rs|] eqn:E; [|discriminate]. cbn [option_map]. intros H. apply some_inj in H. eauto.
Qed.
Example C22_run_example : c22_run 1 None [QNext; QNext; QNext; QNext; QNext; QNext; QScan [97; 97]; QNext; QField 0; QNext; QNext; QField 1; QScan [99; 1]; QScan []] =
  Some [QTerm None; QTerm (Some ([], 1)); QTerm (Some ([97], 25)); QTerm (Some ([97; 98], 16)); QTerm (Some ([98], 1)); QTerm (Some ([99], 2)); QTerm None;
        QTerm (Some ([97; 98], 16)); QTerm (Some ([98], 1)); QDone; QTerm (Some ([120], 4)); QTerm None; QDone; QTerm None; QTerm (Some ([], 1))].
Proof. vm_compute. reflexivity. Qed.
Example C22_from_example : c22_run 1 (Some [97; 1]) [QNext; QNext] = Some [QTerm (Some ([97; 98], 16)); QTerm (Some ([98], 1)); QTerm (Some ([99], 2))].
Proof. vm_compute. reflexivity. Qed.
Example C22_list_example : union (lists c22_mp 1 O c22_xs) = [[]; [97]; [97; 98]; [98]; [99]].
Proof. vm_compute. reflexivity. Qed.
Example C22_doc_freq_example : map (mr_doc_freq O c22_srcs c22_mp 1) [[97]; [97; 97]; [99]] = [Some 25; Some 0; Some 2].
Proof. vm_compute. reflexivity. Qed.
Example C22_opened_example : Forall2 opened c22_xs c22_srcs.
Proof. apply open1_ok. vm_compute. reflexivity. Qed.

(* Starting at the empty string is another matter: a segment whose first term is the empty one is left out as a whole, so the terms "a"
   and "b" of the first segment are missing although they are not below the starting term. *)
Lemma c22_bad : exists r rs, mte_new c22_srcs c22_mp 1 (Some []) = Some r /\ mte_run c22_srcs c22_mp (snd r) [QNext; QNext; QNext; QNext] = Some rs /\
  seen r :: rs = [QTerm (Some ([97], 5)); QTerm (Some ([97; 98], 16)); QTerm (Some ([99], 2)); QTerm None; QTerm None].
Proof. apply c22_run_inv. vm_compute. reflexivity. Qed.
Lemma c22_good : qspec_run c22_mp c22_xs (1, O) (QScan [] :: [QNext; QNext; QNext; QNext]) = [QTerm (Some ([], 1)); QTerm (Some ([97], 25)); QTerm (Some ([97; 98], 16)); QTerm (Some ([98], 1)); QTerm (Some ([99], 2))].
Proof. vm_compute. reflexivity. Qed.
Theorem C22_from_empty_refuted : exists mp xs srcs f os, Forall sgm_ok xs /\ Forall2 opened xs srcs /\ field_in mp (length xs) f /\ Forall (qop_ok mp (length xs)) os /\
  exists r rs, mte_new srcs mp f (Some []) = Some r /\ mte_run srcs mp (snd r) os = Some rs /\ seen r :: rs <> qspec_run mp xs (f, O) (QScan [] :: os) /\
    qspec_run mp xs (f, O) (QScan [] :: os) = [QTerm (Some ([], 1)); QTerm (Some ([97], 25)); QTerm (Some ([97; 98], 16)); QTerm (Some ([98], 1)); QTerm (Some ([99], 2))] /\
    seen r :: rs = [QTerm (Some ([97], 5)); QTerm (Some ([97; 98], 16)); QTerm (Some ([99], 2)); QTerm None; QTerm None].
Proof.
  pose proof C22_ok_example as (H1 & _ & H3). pose proof C22_opened_example as H2. pose proof c22_bad as H4. pose proof c22_good as H5. revert H2 H4. generalize c22_srcs. intros srcs H2 (r & rs & E1 & E2 & E3).
  exists c22_mp, c22_xs, srcs, 1, [QNext; QNext; QNext; QNext]. split; [exact H1|]. split; [exact H2|]. split; [exact H3|]. split; [repeat constructor|]. exists r, rs. split; [exact E1|]. split; [exact E2|]. rewrite E3, H5. split; [discriminate|]. split; reflexivity.
Qed.
Print Assumptions C22_from_empty_refuted.
