(* Theorems of the properties C96 and C97 *)
From Coq Require Import QArith.Qcanon.
From Verif Require Import Util PQueue_Model Query_Model Rank_Model Rank_Spec Rank_Proofs RankQuery_Proofs RankExpl_Proofs RankMore_Proofs.
Open Scope Z_scope.

(* ---------- C96: which documents a search visits and their scores *)
Theorem C96_hits : forall sm q bits, leaves_ok q -> tame false q = true ->
  match scorer_of (q_weight sm q) with
  | None => forall d, matches d q = false
  | Some s => exists l, StronglySorted Z.lt l /\ (forall d, In d l <-> matches d q = true /\ bits d = true) /\
                exists n, forall f, (n <= f)%nat -> hits sm f bits s = Some (map (fun d => (d, worth_of sm q d)) l)
  end.
Proof. exact query_hits. Qed.
Print Assumptions C96_hits.
(* each hit's score depends only on the document, not on what else is found or left out by a filter *)
Theorem C96_only : forall sm q bits l, leaves_ok q -> tame false q = true -> answer sm q bits l ->
  StronglySorted Z.lt (map fst l) /\ (forall d s, In (d, s) l <-> matches d q = true /\ bits d = true /\ s = worth_of sm q d).
Proof. exact answer_only. Qed.
Print Assumptions C96_only.
(* the order in which clauses were added changes neither the hits nor their scores *)
Theorem C96_order : forall sm q q' bits l, shuffled q q' -> leaves_ok q -> tame false q = true -> answer sm q bits l -> answer sm q' bits l.
Proof. exact shuffled_same. Qed.
Print Assumptions C96_order.

(* ---------- C97: explanations *)
Theorem C97_explained : forall sm q bits l d s, leaves_ok q -> tame false q = true -> fair sm -> fair_query q -> within d q = true -> answer sm q bits l -> In (d, s) l ->
  explain sm (q_weight sm q) d = s /\ (0 < s)%Qc.
Proof. exact hit_explained. Qed.
Print Assumptions C97_explained.
(* documents that are not found are explained with 0 *)
Theorem C97_value : forall sm q d, fair sm -> fair_query q -> within d q = true -> explain sm (q_weight sm q) d = if matches d q then worth_of sm q d else 0%Qc.
Proof. exact explained. Qed.
Print Assumptions C97_value.

(* ---------- examples: tf is the frequency, coord the part of the clauses that match *)
Definition q2 (a : Z) (b : BinNums.positive) : Qc := Q2Qc (QArith_base.Qmake a b).
Definition sm1 : sim := {| tf := fun n => q2 n 1; coord := fun n m => q2 (Z.of_nat n) (Pos.of_nat m); query_norm := fun _ => 1%Qc |}.
Definition numbers (l : list (Z * Qc)) : list (Z * QArith_base.Q) := map (fun p => (fst p, this (snd p))) l.
Notation "a // b" := (QArith_base.Qmake a b) (at level 40).
Definition norms1 (d : Z) : Qc := q2 1 (if Z.even d then 1 else 2).
Definition t1 : rquery := RLeaf 1 (q2 2 1) (LTerm (Some [(0, 1); (1, 3); (2, 1); (5, 40); (7, 2)]) norms1).
Definition t2 : rquery := RLeaf (q2 3 1) 1 (LTerm (Some [(1, 1); (2, 2); (6, 1); (7, 1)]) (fun _ => 1%Qc)).
Definition t3 : rquery := RLeaf 1 1 (LTerm (Some [(2, 1); (5, 1)]) (fun _ => 1%Qc)).
Definition all8 : rquery := RLeaf (q2 1 2) 1 (LAll 8 (fun d => d =? 6)).
(* t1 OR t2 OR (all AND NOT t3) *)
Definition q96 : rquery := RBool 1 false [(Should, t1); (Should, t2); (Should, RBool (q2 2 1) false [(Must, all8); (MustNot, t3)])].
Definition found_by (sm : sim) (bits : Z -> bool) (q : rquery) := option_map (fun s => option_map numbers (hits sm 60 bits s)) (scorer_of (q_weight sm q)).
Lemma sm1_fair : fair sm1.
Proof.
  unfold fair, sm1. cbn [tf coord query_norm]. splits.
  - reflexivity.
  - intros n Hn. unfold Qclt, q2, Q2Qc. cbn [this]. rewrite !QArith.Qreduction.Qred_correct. unfold QArith_base.Qlt. cbn [QArith_base.Qnum QArith_base.Qden]. lia.
  - intros n m Hn Hm. unfold Qclt, q2, Q2Qc. cbn [this]. rewrite !QArith.Qreduction.Qred_correct. unfold QArith_base.Qlt. cbn [QArith_base.Qnum QArith_base.Qden]. lia.
  - intros s _. reflexivity.
Qed.
Example C96_example :
  found_by sm1 (fun _ => true) q96 = Some (Some [(0, 10 // 3); (1, 10 // 1); (2, 20 // 3); (3, 1 // 3); (4, 1 // 3); (5, 80 // 3); (6, 1 // 1); (7, 8 // 1)]) /\
  found_by sm1 Z.even q96 = Some (Some [(0, 10 // 3); (2, 20 // 3); (4, 1 // 3); (6, 1 // 1)]) /\ tame false q96 = true.
Proof. repeat split; vm_compute; reflexivity. Qed.
Example C96_fits : leaves_ok q96.
Proof. repeat split; repeat constructor; cbn; lia. Qed.
(* a required clause without a scorer: nothing is searched *)
Example C96_none : scorer_of (q_weight sm1 (RBool 1 false [(Must, t1); (Must, RLeaf 1 1 (LTerm None norms1))])) = None.
Proof. reflexivity. Qed.
Example C96_shuffled : shuffled q96 (RBool 1 false [(Should, t2); (Should, t1); (Should, RBool (q2 2 1) false [(MustNot, t3); (Must, all8)])]).
Proof.
  eapply sh_trans; [apply sh_order; apply perm_swap|]. apply (sh_inside 1 false [(Should, t2); (Should, t1)] Should (RBool (q2 2 1) false [(Must, all8); (MustNot, t3)]) (RBool (q2 2 1) false [(MustNot, t3); (Must, all8)]) []). apply sh_order. apply perm_swap.
Qed.
Example C97_example : fair_query q96 /\ map (fun d => this (explain sm1 (q_weight sm1 q96) d)) [0; 1; 2; 5; 7] = [10 // 3; 10 // 1; 20 // 3; 80 // 3; 8 // 1] /\ map (fun d => within d q96) [0; 1; 2; 5; 6; 7] = [true; true; true; true; false; true].
Proof. split; [|split; vm_compute; reflexivity]. repeat split; repeat constructor; try (intros d; unfold norms1; destruct (Z.even d); reflexivity); cbn; try lia. Qed.

(* ---------- C97 fails for hits of other queries, though they are tame and all is positive *)
Ltac numb H := apply (f_equal this) in H; vm_compute in H; discriminate H.
(* an optional clause without a scorer counts for the coordination of the explanation only *)
Definition q_no_scorer : rquery := RBool 1 false [(Should, t1); (Should, RLeaf 1 1 (LTerm None norms1))].
Theorem C97_no_scorer_refuted : ~ (forall sm q d, fair sm -> leaves_ok q -> tame false q = true -> within d q = true -> matches d q = true -> explain sm (q_weight sm q) d = worth_of sm q d).
Proof. intros H. specialize (H sm1 q_no_scorer 0 sm1_fair ltac:(repeat split; repeat constructor; cbn; lia) eq_refl eq_refl eq_refl). numb H. Qed.
Print Assumptions C97_no_scorer_refuted.
(* a range, a filter or all documents: the explanation does not look whether they contain the document *)
Definition bits1 : rquery := RLeaf 1 1 (LBits [1]).
Definition q_optional : rquery := RBool 1 false [(Must, t1); (Should, bits1)].
Definition q_prohibited : rquery := RBool 1 false [(Must, t1); (MustNot, bits1)].
Lemma fair_bits o : fair_query (RBool 1 false [(Must, t1); (o, bits1)]).
Proof. repeat split; repeat constructor; try (intros d; unfold norms1; destruct (Z.even d); reflexivity); cbn; lia. Qed.
Theorem C97_bits_refuted : ~ (forall sm q d, fair sm -> leaves_ok q -> tame false q = true -> fair_query q -> matches d q = true -> explain sm (q_weight sm q) d = worth_of sm q d).
Proof. intros H. specialize (H sm1 q_optional 0 sm1_fair ltac:(repeat split; repeat constructor; cbn; lia) eq_refl (fair_bits Should) eq_refl). numb H. Qed.
Print Assumptions C97_bits_refuted.
(* a document that is found is explained with 0, as prohibited *)
Theorem C97_found_refuted : ~ (forall sm q d, fair sm -> leaves_ok q -> tame false q = true -> fair_query q -> matches d q = true -> explain sm (q_weight sm q) d <> 0%Qc).
Proof. intros H. apply (H sm1 q_prohibited 0 sm1_fair ltac:(repeat split; repeat constructor; cbn; lia) eq_refl (fair_bits MustNot) eq_refl). apply Qc_is_canon. vm_compute. reflexivity. Qed.
Print Assumptions C97_found_refuted.
(* a document that is not found, here a deleted one, is explained with a value *)
Theorem C97_not_found_refuted : ~ (forall sm q d, fair sm -> leaves_ok q -> fair_query q -> matches d q = false -> explain sm (q_weight sm q) d = 0%Qc).
Proof. intros H. specialize (H sm1 all8 6 sm1_fair Logic.I ltac:(split; [reflexivity|exact Logic.I]) eq_refl). numb H. Qed.
Print Assumptions C97_not_found_refuted.
(* a required clause that scores nothing, with norm 0 (a field boost of 0), is found but explained as missing *)
Definition q_zero : rquery := RBool 1 false [(Must, t1); (Must, RLeaf 1 1 (LTerm (Some [(0, 1)]) (fun _ => 0%Qc)))].
Theorem C97_zero_refuted : ~ (forall sm q d, fair sm -> leaves_ok q -> tame false q = true -> within d q = true -> has_scorer q = true -> matches d q = true -> explain sm (q_weight sm q) d = worth_of sm q d).
Proof. intros H. specialize (H sm1 q_zero 0 sm1_fair ltac:(repeat split; repeat constructor; cbn; lia) eq_refl eq_refl eq_refl eq_refl). numb H. Qed.
Print Assumptions C97_zero_refuted.
