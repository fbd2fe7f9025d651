(* C39 and C40: range filters on text and on numbers; C47: boosts under rewriting. *)
From Verif Require Import Util Strcmp Dict_Model Post_Model Post_Spec Multi_Model Mte_Model Mte_Spec Mtde_Model Mtde_Spec Mtde_Properties Expand_Model Expand_Spec Expand_Proofs Expand_Properties Range_Model Range_Spec Range_Proofs.
Open Scope Z_scope.

(* On any index of one or of several segments, with any deletions and any bounds: the documents that are not deleted and have a term in the range. *)
Theorem C39_selects : forall i r del f g, pidx_open i r -> pidx_field i f ->
  exists n, forall fuel, (n <= fuel)%nat -> exists bv, rfilt_get_bv fuel r del (Some f) g = Some bv /\ forall d, In d bv <-> has_term i f del (in_range g) d.
Proof. exact text_ok. Qed.
Print Assumptions C39_selects.

(* A range can be made of exactly the bounds that make sense. *)
Theorem C39_bounds : forall lower upper incl incu g, range_new lower upper incl incu = Some g <-> bounds_ok lower upper incl incu /\ g = mkRange lower upper incl incu.
Proof. exact range_new_ok. Qed.
Print Assumptions C39_bounds.
Example C39_bounds_example : bounds_ok (Some [97]) (Some [97; 98]) true false /\ ~ bounds_ok (Some [98]) (Some [97; 98]) true false.
Proof. split; [apply (range_new_ok _ _ _ _ (mkRange (Some [97]) (Some [97; 98]) true false)); reflexivity|]. intros (_ & _ & _ & H). specialize (H _ _ eq_refl eq_refl). apply H. reflexivity. Qed.

(* the segments of C21: in field 1, "a" is in 0, 4, 5, 9, 11, 14, "b" in 2 and "c" in 10 *)
Definition c39_i : pidx := PIMany c21_mp c21_vs.
Definition c39_r : prdr := PMany c21_mp c21_gs (pstarts 0 c21_vs).
Lemma c39_open : pidx_open c39_i c39_r /\ pidx_field c39_i 1.
Proof. split; [|exact (proj2 c21_fields)]. split; [reflexivity|]. split; [reflexivity|]. split; [exact c21_ok|]. split; [exact c21_opened|]. exact (proj1 c21_fields). Qed.
Definition c39_del (d : Z) : bool := (d =? 4) || (d =? 11).
Definition c39_run (lo up : option (list Z)) (il iu : bool) : option (list Z) := do g <- range_new lo up il iu; rfilt_get_bv 20 c39_r c39_del (Some 1) g.
Example C39_example : map (fun x : option (list Z) * option (list Z) * (bool * bool) => c39_run (fst (fst x)) (snd (fst x)) (fst (snd x)) (snd (snd x)))
  [(Some [97], Some [98], (true, true)); (Some [97], Some [98], (false, true)); (Some [97], Some [99], (false, false)); (Some [97; 98], None, (true, false)); (None, Some [97], (false, false)); (None, Some [97; 97], (false, false)); (Some [98], Some [97], (true, true))] =
  [Some [2; 14; 9; 5; 0]; Some [2]; Some [2]; Some [10; 2]; Some []; Some [14; 9; 5; 0]; None].
Proof. vm_compute. reflexivity. Qed.

(* Bounds that are numbers, any way to read numbers, in an index where every term from "+." on that starts with a digit or less starts with
   a number: the documents with a term that is a number in the range.  Left out are numbers below "+." (blanks in front) and
   those that start with a letter (inf, nan). *)
Theorem C40_selects_partial : forall num nle nlt zero sscanf i r del f g lo up, pidx_open i r -> pidx_field i f -> bound_is sscanf (r_lower g) lo -> bound_is sscanf (r_upper g) up ->
  (forall t, pvoc i f t -> sle [43; 46] t -> 0 <= List.hd 0 t < 128) -> (forall t, pvoc i f t -> sle [43; 46] t -> List.hd 0 t <= 57 -> exists x n, sscanf t = SOk num x n) ->
  exists n, forall fuel, (n <= fuel)%nat -> exists bv, trfilt_get_bv num nle nlt zero sscanf fuel r del (Some f) g = Some bv /\
    forall d, In d bv <-> has_term i f del (fun t => sle [43; 46] t /\ List.hd 0 t <= 57 /\ exists x, number sscanf t x /\ num_in nle nlt g lo up x) d.
Proof. exact num_ok2. Qed.
Print Assumptions C40_selects_partial.

(* sscanf("%lg%n") as far as integers go *)
Fixpoint digits (acc n : Z) (t : list Z) : Z * Z := match t with c :: t' => if (48 <=? c) && (c <=? 57) then digits (10 * acc + (c - 48)) (n + 1) t' else (acc, n) | [] => (acc, n) end.
Definition whole (sign n : Z) (t : list Z) : scanres Z := let '(x, m) := digits 0 n t in if m =? n then SFail Z else SOk Z (sign * x) m.
Fixpoint isc (n : Z) (t : list Z) : scanres Z :=
  match t with
  | [] => SEof Z
  | c :: t' => if c =? 32 then isc (n + 1) t' else if c =? 45 then whole (-1) (n + 1) t' else if c =? 43 then whole 1 (n + 1) t' else whole 1 n t
  end.
Definition typed (r : prdr) (lo up : option (list Z)) (il iu : bool) : option (list Z) := trfilt_get_bv Z Z.leb Z.ltb 0 (isc 0) 20 r (fun _ => false) (Some 0) (mkRange lo up il iu).
(* 0: "-5", 1: "-7 ", 2: "12", 3: "3", 4: "4a", 5: "abc" *)
Definition c40_good : pseg := mkPseg 2 3 10 [(0, [([45; 53], [(0, [1])]); ([45; 55; 32], [(1, [1])]); ([49; 50], [(2, [1])]); ([51], [(3, [1])]); ([52; 97], [(4, [1])]); ([97; 98; 99], [(5, [1])])])].
(* 0: "-5", 1: "-x" *)
Definition c40_bad : pseg := mkPseg 2 3 10 [(0, [([45; 53], [(0, [1])]); ([45; 120], [(1, [1])])])].
(* 0: "-x" *)
Definition c40_ugly : pseg := mkPseg 2 3 10 [(0, [([45; 120], [(0, [1])])])].
(* 0: " 5" *)
Definition c40_blank : pseg := mkPseg 2 3 10 [(0, [([32; 53], [(0, [1])])])].
Definition c40_vs : list pseg := [c40_good; c40_bad; c40_ugly; c40_blank].
Lemma c40_ok : Forall pseg_ok c40_vs.
Proof. repeat (constructor; [split; [cbn; lia|split; [cbn; lia|split; [cbn; lia|split; [cbn; lia|split; [|split; [cbn; lia|apply bound_of; vm_compute; reflexivity]]]]]]; cbn [v_fs c40_good c40_bad c40_ugly c40_blank]; inv_tac|]). constructor. Qed.
Definition c40_src (v : pseg) : psrc := nth 0 (popen1 v) (mkSeg [] [] (mkDf [] [] []), mkSfi 0 0 []).
Lemma c40_opened v : In v c40_vs -> pidx_open (PIOne v) (POne (c40_src v)).
Proof.
  intros Hv. split; [exact (proj1 (Forall_forall _ _) c40_ok v Hv)|]. assert (G : forallb (fun x => match popen1 x with [] => false | _ => true end) c40_vs = true) by (vm_compute; reflexivity). rewrite forallb_forall in G. specialize (G v Hv).
  unfold c40_src. unfold popen1 in *. destruct (dw_flush _ _ _) as [f|] eqn:E1; [|discriminate]. destruct (sfi_open (g_dict f)) as [s|] eqn:E2; [|discriminate]. split; [exact E1|exact E2].
Qed.
Example C40_example : map (fun x : option (list Z) * option (list Z) * (bool * bool) => typed (POne (c40_src c40_good)) (fst (fst x)) (snd (fst x)) (fst (snd x)) (snd (snd x)))
  [(Some [45; 57], Some [51], (true, true)); (Some [51], Some [49; 50], (false, true)); (Some [51], None, (true, false)); (None, Some [43; 52], (false, false))] = [Some [3; 0]; Some [2]; Some [3; 2]; Some [3; 0]].
Proof. vm_compute. reflexivity. Qed.
Example C40_hypotheses_example : pidx_open (PIOne c40_good) (POne (c40_src c40_good)) /\ bound_is (isc 0) (Some [45; 57]) (-9) /\
  (forall t, pvoc (PIOne c40_good) 0 t -> sle [43; 46] t -> 0 <= List.hd 0 t < 128) /\ (forall t, pvoc (PIOne c40_good) 0 t -> sle [43; 46] t -> List.hd 0 t <= 57 -> exists x n, isc 0 t = SOk Z x n).
Proof.
  split; [apply c40_opened; left; reflexivity|]. split; [reflexivity|]. cbn [pvoc]. change (pterms c40_good 0) with [[45; 53]; [45; 55; 32]; [49; 50]; [51]; [52; 97]; [97; 98; 99]].
  split; intros t Ht _; repeat (destruct Ht as [<-|Ht]; [cbn [List.hd]; try lia; intros Hh; try lia; eexists _, _; vm_compute; reflexivity|]); destruct Ht.
Qed.

(* A term that is no number is taken for the number of the term before it if that one has its length. *)
Theorem C40_stale_number_refuted : exists r i f del g lo up bv d, pidx_open i r /\ pidx_field i f /\ bound_is (isc 0) (r_lower g) lo /\ bound_is (isc 0) (r_upper g) up /\
  trfilt_get_bv Z Z.leb Z.ltb 0 (isc 0) 20 r del (Some f) g = Some bv /\ In d bv /\ ~ has_term i f del (fun t => exists x, number (isc 0) t x) d.
Proof.
  pose proof (c40_opened c40_bad (or_intror (or_introl eq_refl))) as H. assert (E : typed (POne (c40_src c40_bad)) (Some [45; 57]) (Some [48]) true true = Some [1; 0]) by (vm_compute; reflexivity). unfold typed in E. revert H E. generalize (POne (c40_src c40_bad)). intros r H E.
  exists r, (PIOne c40_bad), 0, (fun _ => false), (mkRange (Some [45; 57]) (Some [48]) true true), (-9), 0, [1; 0], 1. split; [exact H|]. split; [exact I|]. split; [reflexivity|]. split; [reflexivity|]. split; [exact E|]. split; [cbn; auto|].
  intros (_ & t & p & (x & Hx) & Hp & Ep). change (In p (match (if seqb [45; 53] t then Some ([45; 53], [(0, [1])]) else if seqb [45; 120] t then Some ([45; 120], [(1, [1])]) else None) with Some (_, ps) => ps | None => [] end)) in Hp.
  destruct (seqb [45; 53] t) eqn:E1; [destruct Hp as [<-|[]]; discriminate|]. destruct (seqb [45; 120] t) eqn:E2; [apply seqb_spec in E2; subst t; discriminate|destruct Hp].
Qed.
Print Assumptions C40_stale_number_refuted.
(* A field whose first term is no number, but as long as a bound: the comparison reads a variable that was never written. *)
Theorem C40_uninitialised_refuted : exists r i f del g lo, pidx_open i r /\ pidx_field i f /\ bound_is (isc 0) (r_lower g) lo /\ r_upper g = None /\
  forall fuel, trfilt_get_bv Z Z.leb Z.ltb 0 (isc 0) (S fuel) r del (Some f) g = None.
Proof.
  pose proof (c40_opened c40_ugly (or_intror (or_intror (or_introl eq_refl)))) as H. exists (POne (c40_src c40_ugly)), (PIOne c40_ugly), 0, (fun _ => false), (mkRange (Some [45; 57]) None true false), (-9). split; [exact H|]. split; [exact I|]. split; [reflexivity|]. split; [reflexivity|].
  assert (E : exists te de, terms_skip (rdr_of (POne (c40_src c40_ugly))) 0 [43; 46] = Some (Some [45; 120], te) /\ term_docs (POne (c40_src c40_ugly)) = Some de) by (eexists _, _; split; vm_compute; reflexivity).
  revert E. clear H. generalize (POne (c40_src c40_ugly)). intros r (te & de & E1 & E2) fuel. unfold trfilt_get_bv. cbn [r_lower r_upper bound]. change (put Z (isc 0) (Some 0, 0) [45; 57]) with (Some (-9), 2). change (isc 0 [45; 57]) with (SOk Z (-9) 2). cbn [andb length Z.of_nat Z.eqb]. change (Pos.eqb 2 2) with true. cbn [andb]. unfold scan. rewrite E1. cbn [obind fst snd]. rewrite E2. reflexivity.
Qed.
Print Assumptions C40_uninitialised_refuted.
(* A number with a blank in front is not found. *)
Theorem C40_blank_refuted : exists r i f del g lo up x d, pidx_open i r /\ pidx_field i f /\ bound_is (isc 0) (r_lower g) lo /\ bound_is (isc 0) (r_upper g) up /\ lo <= x <= up /\
  has_term i f del (fun t => number (isc 0) t x) d /\ trfilt_get_bv Z Z.leb Z.ltb 0 (isc 0) 20 r del (Some f) g = Some [].
Proof.
  pose proof (c40_opened c40_blank (or_intror (or_intror (or_intror (or_introl eq_refl))))) as H. assert (E : typed (POne (c40_src c40_blank)) (Some [48]) (Some [57]) true true = Some []) by (vm_compute; reflexivity). unfold typed in E. revert H E. generalize (POne (c40_src c40_blank)). intros r H E.
  exists r, (PIOne c40_blank), 0, (fun _ => false), (mkRange (Some [48]) (Some [57]) true true), 0, 9, 5, 0. split; [exact H|]. split; [exact I|]. split; [reflexivity|]. split; [reflexivity|]. split; [lia|]. split; [|exact E]. split; [reflexivity|]. exists [32; 53], (0, [1]). split; [reflexivity|]. split; [left; reflexivity|reflexivity].
Qed.
Print Assumptions C40_blank_refuted.

(* ---------- C47 *)
(* Rewriting a pattern without wildcards or a prefix keeps the boost. *)
Lemma keeps : forall fuel r f t max bo q, (prq_rewrite fuel r f t max bo = Some q \/ (snd (split_wild t) = [] /\ wcq_rewrite fuel r f t max bo = Some q)) -> boost_of q = bo.
Proof.
  assert (HA : forall q t q1, add_term q t = Some q1 -> b_boost q1 = b_boost q).
  { intros q t q1. unfold add_term, add_term_boost. intros E. repeat match type of E with context [if ?b then _ else _] => destruct b | (do _ <- ?o; _) = _ => destruct o; cbn [obind] in E; [|discriminate] | match ?o with _ => _ end = _ => destruct o; try discriminate end; try (apply some_inj in E; subst q1; reflexivity); try discriminate. }
  assert (HL : forall fuel r pre t e q q1, pr_loop fuel r pre t e q = Some q1 -> b_boost q1 = b_boost q).
  { induction fuel as [|fuel IH]; intros r pre t e q q1; cbn [pr_loop]; [discriminate|]. destruct (starts_with pre t); [|intros E; apply some_inj in E; subst; reflexivity]. destruct (add_term q t) as [q2|] eqn:E2; cbn [obind]; [|discriminate]. destruct (te_next r e) as [[[u|] e']|]; cbn [obind fst snd]; [| |discriminate].
    - intros E. rewrite (IH _ _ _ _ _ _ E). exact (HA _ _ _ E2).
    - intros E. apply some_inj in E. subst. exact (HA _ _ _ E2). }
  intros fuel r f t max bo q [E|(Hs & E)].
  - unfold prq_rewrite in E. destruct f as [f|]; [|apply some_inj in E; subst; reflexivity]. destruct (terms_from r f t) as [x|]; cbn [obind] in E; [|discriminate]. destruct (pr_loop _ _ _ _ _ _) as [q1|] eqn:E1; cbn [obind] in E; [|discriminate]. apply some_inj in E. subst q. apply HL in E1. exact E1.
  - unfold wcq_rewrite in E. destruct (split_wild t) as [pre pat]. cbn [snd] in Hs. subst pat. apply some_inj in E. subst q. reflexivity.
Qed.
Theorem C47_keeps_partial : forall fuel r f t max bo q, (prq_rewrite fuel r f t max bo = Some q \/ (snd (split_wild t) = [] /\ wcq_rewrite fuel r f t max bo = Some q)) -> boost_of q = bo.
Proof. exact keeps. Qed.
Print Assumptions C47_keeps_partial.
Example C47_example : option_map boost_of (prq_rewrite 9 c36_r (Some 1) [97] 5 7) = Some 7 /\ option_map boost_of (wcq_rewrite 9 c36_r (Some 1) [97; 98] 5 7) = Some 7.
Proof. split; vm_compute; reflexivity. Qed.
(* A pattern with a wildcard: the boost is lost whatever it is, on any index. *)
Lemma loses : forall fuel r f t max bo q, snd (split_wild t) <> [] -> wcq_rewrite fuel r f t max bo = Some q -> boost_of q = one.
Proof.
  assert (HA : forall q t q1, add_term q t = Some q1 -> b_boost q1 = b_boost q).
  { intros q t q1. unfold add_term, add_term_boost. intros E. repeat match type of E with context [if ?b then _ else _] => destruct b | (do _ <- ?o; _) = _ => destruct o; cbn [obind] in E; [|discriminate] | match ?o with _ => _ end = _ => destruct o; try discriminate end; try (apply some_inj in E; subst q1; reflexivity); try discriminate. }
  assert (HL : forall fuel r pre pat t e q q1, wc_loop fuel r pre pat t e q = Some q1 -> b_boost q1 = b_boost q).
  { induction fuel as [|fuel IH]; intros r pre pat t e q q1; cbn [wc_loop]; [discriminate|]. destruct (_ && negb (starts_with pre t)); [intros E; apply some_inj in E; subst; reflexivity|].
    destruct (wc_match pat (skipn (length pre) t)).
    - destruct (add_term q t) as [q2|] eqn:E2; cbn [obind]; [|discriminate]. destruct (te_next r e) as [[[u|] e']|]; cbn [obind fst snd]; [| |discriminate].
      + intros E. rewrite (IH _ _ _ _ _ _ _ E). exact (HA _ _ _ E2).
      + intros E. apply some_inj in E. subst. exact (HA _ _ _ E2).
    - cbn [obind]. destruct (te_next r e) as [[[u|] e']|]; cbn [obind fst snd]; [apply IH| |discriminate]. intros E. apply some_inj in E. subst. reflexivity. }
  intros fuel r f t max bo q Hs E. unfold wcq_rewrite in E. destruct (split_wild t) as [pre [|c pat]]; [exfalso; apply Hs; reflexivity|]. destruct f as [f|]; [|apply some_inj in E; subst; reflexivity]. destruct (length pre <? 255)%nat; [|discriminate]. destruct (terms_from r f pre) as [x|]; cbn [obind] in E; [|discriminate].
  destruct (wc_loop _ _ _ _ _ _ _) as [q1|] eqn:E1; cbn [obind] in E; [|discriminate]. apply some_inj in E. subst q. apply HL in E1. exact E1.
Qed.
Theorem C47_wildcard_refuted : forall fuel r f t max bo q, snd (split_wild t) <> [] -> wcq_rewrite fuel r f t max bo = Some q -> boost_of q = one.
Proof. exact loses. Qed.
Print Assumptions C47_wildcard_refuted.
Example C47_wildcard_example : option_map boost_of (wcq_rewrite 9 c36_r (Some 1) [97; 42] 5 (2 * one)) = Some one.
Proof. vm_compute. reflexivity. Qed.
(* The same for ranges. *)
Theorem C47_range_refuted : exists g bo, 0 < bo /\ snd (rq_rewrite g bo) <> bo.
Proof. exists (mkRange (Some [97]) None true false), (2 * one). split; [reflexivity|discriminate]. Qed.
Print Assumptions C47_range_refuted.
