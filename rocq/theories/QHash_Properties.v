(* C48: equal queries hash equally; C65: equal queries select the same documents. *)
From Verif Require Import Util Strcmp Dict_Model Post_Model Post_Spec Multi_Model Mte_Model Mte_Spec Mtde_Model Mtde_Spec Mtde_Properties Expand_Model Expand_Spec Expand_Proofs Expand_Properties Range_Model Range_Spec Range_Proofs Range_Properties
  QHash_Model QHash_Spec QHash_Proofs.
Open Scope Z_scope.

(* Queries of all types, nested to any depth, with any sharing of objects: if the comparison says equal, the hash values are equal.  Left out are queries that hash a zero. *)
Theorem C48_equal_hash_partial : forall same fsame a b, sound same fsame -> every no_zero a -> q_eq same fsame a b = Some true -> q_hash a = q_hash b.
Proof. intros same fsame a b H. exact (eq_hash same fsame H a b). Qed.
Print Assumptions C48_equal_hash_partial.
(* A query equals a copy of itself, so that it is found. *)
Theorem C48_copy_partial : forall same fsame q, every comparable q -> q_eq same fsame q q = Some true.
Proof. exact eq_refl_ok. Qed.
Print Assumptions C48_copy_partial.
(* The comparison of two queries is defined if neither has a FilteredQuery or a span query of clauses in it. *)
Theorem C48_defined_partial : forall same fsame a b, every simple a -> every simple b -> exists r, q_eq same fsame a b = Some r.
Proof. exact eq_def. Qed.
Print Assumptions C48_defined_partial.

Definition c48_no (a b : qry) : bool := false.
Definition f1 : Z := 1065353216.
Definition c48_q (x : Z) : qry :=
  Qn f1 (KBool false 1024)
     [(1, Qn f1 (KTerm [102] [97; 98]) []);
      (0, Qn f1 (KPhrase [102] 2 [(0, [[97]; [98]]); (1, [[99]])]) []);
      (0, Qn f1 (KSpanNear (Some [102]) 4 true) [(0, Qn f1 (KSpanTerm (Some [102]) [97]) []); (0, Qn x (KSpanOr (Some [102])) [(0, Qn f1 (KSpanTerm (Some [102]) [98]) [])])]);
      (2, Qn f1 (KConst FQuery) [(0, Qn f1 (KFuzzy [102] [97; 98; 99] 1056964608 0 x) [])])].
Example C48_example : q_eq c48_no c48_no (c48_q f1) (c48_q 7) = Some true /\ q_hash (c48_q f1) = q_hash (c48_q 7) /\ q_hash (c48_q f1) <> None /\ c48_q f1 <> c48_q 7 /\
  sound c48_no c48_no /\ every no_zero (c48_q f1) /\ every comparable (c48_q f1).
Proof.
  split; [vm_compute; reflexivity|]. split; [vm_compute; reflexivity|]. split; [vm_compute; discriminate|]. split; [discriminate|].
  split; [split; intros; discriminate|]. split; [cbn [c48_q every snd no_zero]; tauto|]. cbn [c48_q every snd]. unfold comparable. cbn [c48_q every snd]. tauto.
Qed.
Example C48_defined_example : let a := Qn f1 (KBool true 9) [(0, Qn f1 (KPrefix [102] [97] 3) []); (2, Qn f1 (KConst (FRange false {| g_field := [102]; g_lower := Some [97]; g_upper := None; g_il := true; g_iu := false |})) [])] in
  every simple a /\ q_eq c48_no c48_no a a = Some true.
Proof. split; [cbn; tauto|vm_compute; reflexivity]. Qed.

(* Two queries of terms with boosts, 0.0 in one and -0.0 in the other, are equal and have different hash values. *)
Theorem C48_zero_refuted : exists a b h h', forall same fsame, q_eq same fsame a b = Some true /\ q_hash a = Some h /\ q_hash b = Some h' /\ h <> h'.
Proof.
  exists (Qn f1 (KMulti [102] [([97], 0)]) []), (Qn f1 (KMulti [102] [([97], 2 ^ 31)]) []). eexists _, _. intros same fsame.
  split; [unfold q_eq, q_eq_of; destruct (same _ _); vm_compute; reflexivity|]. split; [vm_compute; reflexivity|]. split; [vm_compute; reflexivity|discriminate].
Qed.
Print Assumptions C48_zero_refuted.
(* A FilteredQuery has neither a hash value nor a comparison: any use of it in a boolean query that is hashed or compared calls a NULL pointer. *)
Lemma filtered_bad : forall same fsame x y s s' , q_hash (Qn x KFiltered s) = None /\
  (same (Qn x KFiltered s) (Qn y KFiltered s') = false -> feq x y = true -> fsame (Qn x KFiltered s) (Qn y KFiltered s') = false -> q_eq same fsame (Qn x KFiltered s) (Qn y KFiltered s') = None).
Proof.
  intros. split.
  - unfold q_hash. cbn [raw_hash]. destruct (seq_o _); reflexivity.
  - intros H1 H2 _. unfold q_eq, q_eq_of. rewrite H1. cbn [kd ty boost]. rewrite Z.eqb_refl, H2. reflexivity.
Qed.
Theorem C48_filtered_refuted : forall same fsame x y s s' , q_hash (Qn x KFiltered s) = None /\
  (same (Qn x KFiltered s) (Qn y KFiltered s') = false -> feq x y = true -> fsame (Qn x KFiltered s) (Qn y KFiltered s') = false -> q_eq same fsame (Qn x KFiltered s) (Qn y KFiltered s') = None).
Proof. exact filtered_bad. Qed.
Print Assumptions C48_filtered_refuted.
(* SpanOrQuery[SpanTermQuery] compared with SpanOrQuery[SpanNearQuery] reads a struct of another type. *)
Theorem C48_span_types_refuted : exists a b, q_hash a <> None /\ q_hash b <> None /\ q_eq c48_no c48_no a b = None.
Proof.
  exists (Qn f1 (KSpanOr (Some [102])) [(0, Qn f1 (KSpanTerm (Some [102]) [97]) [])]),
         (Qn f1 (KSpanOr (Some [102])) [(0, Qn f1 (KSpanNear (Some [102]) 0 false) [(0, Qn f1 (KSpanTerm (Some [102]) [97]) [])])]).
  split; [vm_compute; discriminate|]. split; [vm_compute; discriminate|]. vm_compute. reflexivity.
Qed.
Print Assumptions C48_span_types_refuted.

(* Equal queries are the same but for the limits on terms and clauses, the type of range filters and the boosts of clauses of span queries. *)
Theorem C65_same_partial : forall same fsame a b, sound same fsame -> every no_zero a -> q_eq same fsame a b = Some true -> erase false a = erase false b.
Proof. intros same fsame a b H. exact (eq_erase same fsame H a b). Qed.
Print Assumptions C65_same_partial.
Example C65_example : erase false (c48_q f1) = erase false (c48_q 7) /\ erase false (c48_q 7) <> erase false (Qn f1 (KBool false 1024) []).
Proof. split; [vm_compute; reflexivity|discriminate]. Qed.
(* Two prefix queries that are equal and find different terms. *)
Theorem C65_limit_refuted : exists i r f pre m m', idx_open i r /\ idx_field i f /\
  q_eq c48_no c48_no (Qn f1 (KPrefix [102] pre (Z.of_nat m)) []) (Qn f1 (KPrefix [102] pre (Z.of_nat m')) []) = Some true /\
  c36_show (prq_rewrite 9 r (Some f) pre m one) = Some [[97]] /\ c36_show (prq_rewrite 9 r (Some f) pre m' one) = Some [[97]; [97; 98]].
Proof.
  assert (E : c36_show (prq_rewrite 9 c36_r (Some 1) [97] 1 one) = Some [[97]] /\ c36_show (prq_rewrite 9 c36_r (Some 1) [97] 2 one) = Some [[97]; [97; 98]]) by (split; vm_compute; reflexivity).
  pose proof c36_open as H. pose proof (proj1 (proj2 C36_hypotheses_example)) as Hf. revert H E. generalize c36_r. intros r H E.
  exists c36_i, r, 1, [97], 1%nat, 2%nat. split; [exact H|]. split; [exact Hf|]. split; [vm_compute; reflexivity|exact E].
Qed.
Print Assumptions C65_limit_refuted.
(* A constant score query of a range filter and one of a typed range filter that are equal and select different documents. *)
Theorem C65_range_refuted : exists i r f lo up bv bv', pidx_open i r /\ pidx_field i f /\
  (let g := {| g_field := [102]; g_lower := Some lo; g_upper := Some up; g_il := true; g_iu := true |} in
   q_eq c48_no c48_no (Qn f1 (KConst (FRange false g)) []) (Qn f1 (KConst (FRange true g)) []) = Some true) /\
  rfilt_get_bv 20 r (fun _ => false) (Some f) (mkRange (Some lo) (Some up) true true) = Some bv /\
  trfilt_get_bv Z Z.leb Z.ltb 0 (isc 0) 20 r (fun _ => false) (Some f) (mkRange (Some lo) (Some up) true true) = Some bv' /\ In 2 bv /\ ~ In 2 bv'.
Proof.
  assert (E : rfilt_get_bv 20 (POne (c40_src c40_good)) (fun _ => false) (Some 0) (mkRange (Some [45; 53]) (Some [52]) true true) = Some [3; 2; 1; 0] /\
    trfilt_get_bv Z Z.leb Z.ltb 0 (isc 0) 20 (POne (c40_src c40_good)) (fun _ => false) (Some 0) (mkRange (Some [45; 53]) (Some [52]) true true) = Some [3; 0]) by (split; vm_compute; reflexivity).
  pose proof (c40_opened c40_good (or_introl eq_refl)) as H. revert H E. generalize (POne (c40_src c40_good)). intros r H [E1 E2].
  exists (PIOne c40_good), r, 0, [45; 53], [52], [3; 2; 1; 0], [3; 0]. split; [exact H|]. split; [exact I|]. split; [vm_compute; reflexivity|].
  split; [exact E1|]. split; [exact E2|]. split; [cbn; auto|]. cbn. intros [|[|[]]]; discriminate.
Qed.
Print Assumptions C65_range_refuted.
