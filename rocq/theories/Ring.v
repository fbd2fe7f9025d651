(* A list read as a ring from an index on, as the conjunction and phrase scorers do with PREV_NUM and NEXT_NUM. *)
From Coq Require Import Sorting.Permutation Sorting.Sorted.
From Verif Require Import Util.
Open Scope Z_scope.
Ltac splits := match goal with |- _ /\ _ => split; [|splits] | _ => idtac end.
Notation up := (StronglySorted Z.le).
Lemma up_app a b : up a -> up b -> (forall x y, In x a -> In y b -> x <= y) -> up (a ++ b).
Proof.
  induction 1 as [|x a Ha IH HF]; intros Hb H; [exact Hb|]. cbn [app]. constructor; [apply IH; [exact Hb|intros; apply H; [right|]; assumption]|]. apply Forall_app. split; [exact HF|]. apply Forall_forall. intros y Hy. apply H; [left; reflexivity|exact Hy].
Qed.
Lemma up_app_inv a b : up (a ++ b) -> up a /\ up b /\ forall x y, In x a -> In y b -> x <= y.
Proof.
  induction a as [|x a IH]; cbn [app]; intros H; [splits; [constructor|exact H|intros ? ? []]|]. inversion H as [|? ? H1 H2]; subst. destruct (IH H1) as (G1 & G2 & G3). rewrite Forall_app in H2. destruct H2 as (H2 & H3). splits; [constructor; assumption|exact G2|]. intros u v [<-|Hu] Hv; [rewrite Forall_forall in H3; auto|auto].
Qed.
Lemma up_inv x a : up (x :: a) -> up a /\ forall y, In y a -> x <= y.
Proof. intros H. inversion H as [|? ? H1 H2]; subst. rewrite Forall_forall in H2. auto. Qed.
Section RING.
  Context {A : Type}.
  Lemma upd_mid (a : list A) p b v : upd (a ++ p :: b) (length a) v = a ++ v :: b.
  Proof. induction a as [|x a IH]; cbn [app length upd]; [reflexivity|f_equal; exact IH]. Qed.
  Lemma nth_mid (a : list A) p b : nth_error (a ++ p :: b) (length a) = Some p.
  Proof. induction a; cbn; auto. Qed.
  Definition rot (a : list A) (p : A) (b : list A) : list A := p :: b ++ a.
  Lemma rot_perm a p b : Permutation (a ++ p :: b) (rot a p b).
  Proof. unfold rot. rewrite <- Permutation_middle. constructor. apply Permutation_app_comm. Qed.
  Lemma rot_in a p b x : In x (rot a p b) <-> In x (a ++ p :: b).
  Proof. split; intros H; [exact (Permutation_in _ (Permutation_sym (rot_perm a p b)) H)|exact (Permutation_in _ (rot_perm a p b) H)]. Qed.
  Lemma ring_next a p b v : exists a' p' b', a ++ v :: b = a' ++ p' :: b' /\ ((length a + 1) mod length (a ++ p :: b))%nat = length a' /\ rot a' p' b' = (b ++ a) ++ [v].
  Proof.
    rewrite app_length. cbn [length]. destruct b as [|p2 b].
    - cbn [length]. rewrite Nat.mod_same by lia. destruct a as [|p0 a]; cbn [app].
      + exists [], v, []. auto.
      + exists [], p0, (a ++ [v]). unfold rot. rewrite app_nil_r. auto.
    - exists (a ++ [v]), p2, b. splits; [rewrite <- app_assoc; reflexivity| |unfold rot; rewrite app_assoc; reflexivity]. rewrite app_length. cbn [length]. apply Nat.mod_small. lia.
  Qed.
  (* the last element in the order, and what becomes of the ring when it is replaced *)
  Lemma ring_prev a p b : exists c q e, a ++ p :: b = c ++ q :: e /\ ((length a + length (a ++ p :: b) - 1) mod length (a ++ p :: b))%nat = length c /\
    exists l, rot a p b = l ++ [q] /\ forall q', exists a' p' b', c ++ q' :: e = a' ++ p' :: b' /\ length a' = length a /\ rot a' p' b' = l ++ [q'].
  Proof.
    rewrite app_length. cbn [length]. destruct a as [|p0 a0].
    - destruct (exists_last (l := p :: b) ltac:(discriminate)) as (c & q1 & E1). exists c, q1, []. assert (Hl : length (p :: b) = S (length c)) by (rewrite E1, app_length; cbn; lia). cbn [length] in Hl. splits.
      + exact E1.
      + cbn [length app]. replace (0 + (0 + S (length b)) - 1)%nat with (length b) by lia. rewrite Nat.mod_small by lia. lia.
      + exists c. unfold rot. rewrite app_nil_r. split; [exact E1|]. intros q'. destruct c as [|c0 c].
        * exists [], q', []. auto.
        * exists [], c0, (c ++ [q']). rewrite app_nil_r. auto.
    - destruct (exists_last (l := p0 :: a0) ltac:(discriminate)) as (c & q1 & E1). exists c, q1, (p :: b). assert (Hl : length (p0 :: a0) = S (length c)) by (rewrite E1, app_length; cbn; lia). rewrite E1. splits.
      + rewrite <- app_assoc. reflexivity.
      + rewrite <- E1, Hl. replace (S (length c) + (S (length c) + S (length b)) - 1)%nat with (length c + 1 * (S (length c) + S (length b)))%nat by lia. rewrite Nat.mod_add by lia. apply Nat.mod_small. lia.
      + exists (p :: b ++ c). unfold rot. split; [cbn [app]; rewrite <- app_assoc; reflexivity|]. intros q'. exists (c ++ [q']), p, b. splits; [rewrite <- app_assoc; reflexivity|rewrite !app_length; reflexivity|]. cbn [app]. rewrite <- app_assoc. reflexivity.
  Qed.
End RING.
