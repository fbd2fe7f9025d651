(* C38: fuzzy queries and the edit distance. *)
From Coq Require Import Sorting.Permutation Sorting.Sorted.
From Verif Require Import Util Strcmp Dict_Model Dict_Spec PQueue_Model Multi_Model Mte_Model Mte_Spec Mte_Properties Expand_Model Expand_Spec Expand_Proofs Expand_Properties Fuzzy_Model Fuzzy_Spec Fuzzy_Proofs.
Open Scope Z_scope.

Theorem C38_score : forall calc pre text target, exists s, fuzq_score calc (fuzq_new calc text (Z.of_nat (length pre))) target = Some s /\ verdict calc (pre ++ text) (pre ++ target) s.
Proof. exact score_ok. Qed.
Print Assumptions C38_score.
(* no candidate within the permitted distance is rejected by an early exit *)
Lemma within calc pre text target k : pre ++ text <> [] -> pre ++ target <> [] -> distance (pre ++ text) (pre ++ target) k ->
  Z.of_nat k <= calc (Z.min (Z.of_nat (length (pre ++ text))) (Z.of_nat (length (pre ++ target)))) ->
  fuzq_score calc (fuzq_new calc text (Z.of_nat (length pre))) target = Some (Sim (Z.of_nat k) (Z.min (Z.of_nat (length (pre ++ text))) (Z.of_nat (length (pre ++ target))))).
Proof.
  intros H1 H2 HD Hk. destruct (score_ok calc pre text target) as (s & -> & Hs). f_equal.
  assert (U : forall j, distance (pre ++ text) (pre ++ target) j -> j = k) by (intros j (A1 & A2); destruct HD as (B1 & B2); specialize (A2 _ B1); specialize (B2 _ A1); lia).
  destruct s as [|d l]; cbn [verdict] in Hs.
  - exfalso. destruct Hs as [[H|H]|(j & Hj & H)]; [apply H1, length_zero_iff_nil, H|apply H2, length_zero_iff_nil, H|]. rewrite (U j Hj) in H. lia.
  - destruct Hs as (Hd & H0 & ->). apply U in Hd. f_equal. lia.
Qed.
Theorem C38_within_distance : forall calc pre text target k, pre ++ text <> [] -> pre ++ target <> [] -> distance (pre ++ text) (pre ++ target) k ->
  Z.of_nat k <= calc (Z.min (Z.of_nat (length (pre ++ text))) (Z.of_nat (length (pre ++ target)))) ->
  fuzq_score calc (fuzq_new calc text (Z.of_nat (length pre))) target = Some (Sim (Z.of_nat k) (Z.min (Z.of_nat (length (pre ++ text))) (Z.of_nat (length (pre ++ target))))).
Proof. exact within. Qed.
Print Assumptions C38_within_distance.
Theorem C38_selects : forall calc sim i r f term pre_len min max fuel, (1 <= max)%nat -> idx_open i r -> idx_field i f -> (pre_len < length term)%nat -> (length (idx_terms i f) < fuel)%nat ->
  exists m sel score, fuzq_rewrite calc sim fuel r (Some f) term pre_len min max = Some (QMultiQ m) /\ StronglySorted slt sel /\
    (forall t, In t sel <-> In t (idx_terms i f) /\ t <> [] /\ firstn pre_len t = firstn pre_len term /\ min < sim (score t)) /\
    (forall t, firstn pre_len t = firstn pre_len term -> verdict calc term t (score t)) /\
    best max (boosts_in_query m) (map (fun t => (t, sim (score t))) sel).
Proof. exact fuzzy_ok. Qed.
Print Assumptions C38_selects.

(* min_sim 0.5: half of the length; the similarities in units of 1/60 *)
Definition c38_calc (x : Z) : Z := x / 2.
Definition c38_sim (s : fscore) : Z := match s with Zero => 0 | Sim d l => 60 - 60 * d / l end.
Definition kitten : list Z := [107; 105; 116; 116; 101; 110].
Definition sitting : list Z := [115; 105; 116; 116; 105; 110; 103].
Example C38_score_example : fuzq_score c38_calc (fuzq_new c38_calc kitten 0) sitting = Some (Sim 3 6) /\ fuzq_score c38_calc (fuzq_new c38_calc kitten 0) [115; 105; 116] = Some Zero /\
  fuzq_score c38_calc (fuzq_new c38_calc (skipn 2 kitten) 2) [116; 101; 110; 115] = Some (Sim 2 6).
Proof. vm_compute. auto. Qed.
Definition c38_show (q : option rq) : option (list (list Z * Z)) := match q with Some (QMultiQ m) => Some (boosts_in_query m) | _ => None end.
(* the terms of the segments of C22 are "", "a", "ab", "b" and "c" *)
Example C38_rewrite_example : map (fun n => c38_show (fuzq_rewrite c38_calc c38_sim 9 c36_r (Some 1) [97; 98] 0 (-1) n)) [1; 2; 8]%nat = [Some [([97; 98], 60)]; Some [([97], 0); ([97; 98], 60)]; Some [([97], 0); ([99], 0); ([98], 0); ([97; 98], 60)]] /\
  c38_show (fuzq_rewrite c38_calc c38_sim 9 c36_r (Some 1) [97; 98; 99] 1 10 8) = Some [([97; 98], 30)].
Proof. vm_compute. auto. Qed.
Example C38_hypotheses_example : idx_open c36_i c36_r /\ idx_field c36_i 1.
Proof. split; [exact c36_open|exact (proj2 (proj2 C22_ok_example))]. Qed.
