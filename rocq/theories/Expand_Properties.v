(* C36 and C37: wildcard and prefix queries. *)
From Coq Require Import Sorting.Permutation Sorting.Sorted.
From Verif Require Import Util Strcmp Dict_Model Dict_Spec PQueue_Model Multi_Model Mte_Model Mte_Spec Mte_Properties Expand_Model Expand_Spec Expand_Proofs.
Open Scope Z_scope.

(* The matcher follows the glob semantics, for any pattern and any text. *)
Theorem C36_match : forall p t, wc_match p t = true <-> glob p t.
Proof. exact wc_match_ok. Qed.
Print Assumptions C36_match.
(* "a*?b*" *)
Example C36_match_example : map (wc_match [97; 42; 63; 98; 42]) [[97; 98]; [97; 120; 98]; [97; 98; 98; 98]; [97; 120; 120; 98; 99; 99]; [97; 120; 120]; []] = [false; true; true; true; false; false].
Proof. vm_compute. reflexivity. Qed.

(* A pattern with a wildcard on an index of one or of several segments, with any limit: the query holds the first terms, in order, of
   the matching ones, all of them if the limit is large enough.  Left out is the empty term. *)
Theorem C36_selects_partial : forall i r f pat max bo fuel, (1 <= max)%nat -> idx_open i r -> idx_field i f -> from_ok i f (fst (split_wild pat)) ->
  (length (fst (split_wild pat)) < 255)%nat -> snd (split_wild pat) <> [] -> (length (idx_terms i f) < fuel)%nat ->
  exists q, wcq_rewrite fuel r (Some f) pat max bo = Some q /\ selects q max (idx_terms i f) (glob pat).
Proof. exact wildcard_ok. Qed.
Print Assumptions C36_selects_partial.

(* A prefix query: the first terms, in order, of those that start with the prefix. *)
Theorem C37_selects_partial : forall i r f pre max bo fuel, (1 <= max)%nat -> idx_open i r -> idx_field i f -> from_ok i f pre -> (length (idx_terms i f) < fuel)%nat ->
  exists q, prq_rewrite fuel r (Some f) pre max bo = Some q /\ selects q max (idx_terms i f) (fun t => exists u, t = pre ++ u) /\ boost_of q = bo.
Proof. exact prefix_ok. Qed.
Print Assumptions C37_selects_partial.

(* For a prefix that is not empty nothing is left out: the whole of the property, on any index. *)
Lemma prefix_whole : forall i r f pre max bo fuel, (1 <= max)%nat -> idx_open i r -> idx_field i f -> pre <> [] -> (length (idx_terms i f) < fuel)%nat ->
  exists m sel, prq_rewrite fuel r (Some f) pre max bo = Some (QMultiQ m) /\ StronglySorted slt sel /\ (forall t, In t sel <-> In t (idx_terms i f) /\ exists u, t = pre ++ u) /\
    Permutation (terms_in_query m) (firstn max sel).
Proof.
  intros i r f pre max bo fuel H1 H2 H3 H4 H5. destruct (prefix_ok i r f pre max bo fuel H1 H2 H3) as (q & E & Hq & _); [destruct i; cbn; auto|exact H5|]. destruct q as [|m]; [destruct Hq|]. destruct Hq as (sel & S1 & S2 & S3). exists m, sel. split; [exact E|]. split; [exact S1|]. split; [|exact S3].
  intros t. rewrite S2. split; [tauto|]. intros (G1 & u & ->). split; [exact G1|]. split; [destruct pre; [congruence|discriminate]|eauto].
Qed.
Theorem C37_nonempty_prefix : forall i r f pre max bo fuel, (1 <= max)%nat -> idx_open i r -> idx_field i f -> pre <> [] -> (length (idx_terms i f) < fuel)%nat ->
  exists m sel, prq_rewrite fuel r (Some f) pre max bo = Some (QMultiQ m) /\ StronglySorted slt sel /\ (forall t, In t sel <-> In t (idx_terms i f) /\ exists u, t = pre ++ u) /\
    Permutation (terms_in_query m) (firstn max sel).
Proof. exact prefix_whole. Qed.
Print Assumptions C37_nonempty_prefix.

(* the segments of C22: the terms of field 1 are "", "a", "ab", "b" and "c" *)
Definition c36_i : idx := IMany c22_mp c22_xs.
Definition c36_r : rdr := RMany c22_mp c22_srcs.
Definition c36_one : idx := IOne (mkSgm 1 16 c22_b).
Definition c36_show (q : option rq) : option (list (list Z)) := match q with Some (QMultiQ m) => Some (terms_in_query m) | _ => None end.
Example C36_rewrite_example : map (fun p => c36_show (wcq_rewrite 9 c36_r (Some 1) p 8 one)) [[97; 42]; [97; 63]; [98; 63]; [97; 42; 98]] = [Some [[97]; [97; 98]]; Some [[97; 98]]; Some []; Some [[97; 98]]].
Proof. vm_compute. reflexivity. Qed.
Example C37_rewrite_example : map (fun n => c36_show (prq_rewrite 9 c36_r (Some 1) [97] n one)) [1; 2; 5]%nat = [Some [[97]]; Some [[97]; [97; 98]]; Some [[97]; [97; 98]]].
Proof. vm_compute. reflexivity. Qed.
Lemma c36_open : idx_open c36_i c36_r.
Proof. split; [reflexivity|]. split; [exact (proj1 C22_ok_example)|exact C22_opened_example]. Qed.
Example C36_hypotheses_example : idx_open c36_i c36_r /\ idx_field c36_i 1 /\ from_ok c36_i 1 (fst (split_wild [97; 42])) /\ snd (split_wild [97; 42]) <> [] /\ idx_terms c36_i 1 = [[]; [97]; [97; 98]; [98]; [99]].
Proof.
  pose proof c36_open as H. revert H. generalize c36_r. intros r H. split; [exact H|]. split; [exact (proj2 (proj2 C22_ok_example))|]. split; [left; discriminate|]. split; [discriminate|vm_compute; reflexivity].
Qed.

(* With an empty prefix the term "b", which only the segment with the empty term has, is not found by the prefix query "" nor by the wildcard query "*". *)
Lemma c37_bad : c36_show (prq_rewrite 9 c36_r (Some 1) [] 256 one) = Some [[97]; [97; 98]; [99]].
Proof. vm_compute. reflexivity. Qed.
Lemma c36_bad : c36_show (wcq_rewrite 9 c36_r (Some 1) [42] 256 one) = Some [[97]; [97; 98]; [99]].
Proof. vm_compute. reflexivity. Qed.
Lemma c36_terms : idx_terms c36_i 1 = [[]; [97]; [97; 98]; [98]; [99]].
Proof. vm_compute. reflexivity. Qed.
Lemma c36_show_inv q l : c36_show q = Some l -> exists m, q = Some (QMultiQ m) /\ terms_in_query m = l.
Proof. destruct q as [[|m]|]; cbn; try discriminate. intros H. apply some_inj in H. eauto. Qed.
Theorem C37_empty_prefix_refuted : exists i r f m, idx_open i r /\ idx_field i f /\ prq_rewrite (S (S (length (idx_terms i f)))) r (Some f) [] 256 one = Some (QMultiQ m) /\
  In [98] (idx_terms i f) /\ (length (idx_terms i f) < 256)%nat /\ ~ In [98] (terms_in_query m).
Proof.
  pose proof c36_open as H1. assert (H2 : c36_show (prq_rewrite 7 c36_r (Some 1) [] 256 one) = Some [[97]; [97; 98]; [99]]) by (vm_compute; reflexivity). apply c36_show_inv in H2. revert H1 H2. generalize c36_r. intros r H1 (m & E & Hm). exists c36_i, r, 1, m. rewrite c36_terms. split; [exact H1|]. split; [exact (proj2 (proj2 C22_ok_example))|].
  split; [exact E|]. split; [cbn; auto|]. split; [cbn; lia|]. rewrite Hm. cbn. intuition discriminate.
Qed.
Print Assumptions C37_empty_prefix_refuted.
Theorem C36_star_refuted : exists i r f m, idx_open i r /\ idx_field i f /\ wcq_rewrite (S (S (length (idx_terms i f)))) r (Some f) [WILD_STRING] 256 one = Some (QMultiQ m) /\
  In [98] (idx_terms i f) /\ glob [WILD_STRING] [98] /\ (length (idx_terms i f) < 256)%nat /\ ~ In [98] (terms_in_query m).
Proof.
  pose proof c36_open as H1. assert (H2 : c36_show (wcq_rewrite 7 c36_r (Some 1) [WILD_STRING] 256 one) = Some [[97]; [97; 98]; [99]]) by (vm_compute; reflexivity). apply c36_show_inv in H2. revert H1 H2. generalize c36_r. intros r H1 (m & E & Hm). exists c36_i, r, 1, m. rewrite c36_terms. split; [exact H1|]. split; [exact (proj2 (proj2 C22_ok_example))|].
  split; [exact E|]. split; [cbn; auto|]. split; [apply wc_match_ok; reflexivity|]. split; [cbn; lia|]. rewrite Hm. cbn. intuition discriminate.
Qed.
Print Assumptions C36_star_refuted.

(* A pattern with 255 bytes in front of its first wildcard is written behind the end of a buffer. *)
Lemma long_pattern : forall fuel r f n pat max bo, (255 <= n)%nat -> wcq_rewrite fuel r (Some f) (repeat 97 n ++ WILD_STRING :: pat) max bo = None.
Proof.
  intros fuel r f n pat max bo Hn. unfold wcq_rewrite. assert (E : split_wild (repeat 97 n ++ WILD_STRING :: pat) = (repeat 97 n, WILD_STRING :: pat)).
  { clear. induction n as [|n IH]; [reflexivity|]. cbn [repeat app split_wild]. rewrite IH. reflexivity. }
  rewrite E. rewrite (proj2 (Nat.ltb_ge _ _)) by (rewrite repeat_length; exact Hn). reflexivity.
Qed.
Theorem C36_long_pattern_refuted : forall fuel r f n pat max bo, (255 <= n)%nat -> wcq_rewrite fuel r (Some f) (repeat 97 n ++ WILD_STRING :: pat) max bo = None.
Proof. exact long_pattern. Qed.
Print Assumptions C36_long_pattern_refuted.
Example C36_long_pattern_example : wcq_rewrite 9 c36_r (Some 1) (repeat 97 254 ++ [WILD_STRING]) 8 one <> None /\ wcq_rewrite 9 c36_r (Some 1) (repeat 97 255 ++ [WILD_STRING]) 8 one = None.
Proof. split; [vm_compute; discriminate|vm_compute; reflexivity]. Qed.
