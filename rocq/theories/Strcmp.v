(* strcmp on the bytes in front of the terminating NUL (compared as unsigned char), and its order. *)
From Verif Require Import Util.
Open Scope Z_scope.

Fixpoint scmp (s t : list Z) : comparison :=
  match s, t with
  | [], [] => Eq
  | [], _ :: _ => Lt
  | _ :: _, [] => Gt
  | a :: s', b :: t' => match a ?= b with Eq => scmp s' t' | c => c end
  end.
Definition sltb (s t : list Z) : bool := match scmp s t with Lt => true | _ => false end.
Definition sleb (s t : list Z) : bool := match scmp s t with Gt => false | _ => true end.
Definition seqb (s t : list Z) : bool := match scmp s t with Eq => true | _ => false end.
Definition slt (s t : list Z) : Prop := scmp s t = Lt.
Definition sle (s t : list Z) : Prop := scmp s t <> Gt.

Lemma scmp_eq s : forall t, scmp s t = Eq <-> s = t.
Proof.
  induction s as [|a s IH]; intros [|b t]; cbn; split; intros H; try discriminate; try reflexivity.
  - destruct (Z.compare_spec a b); try discriminate. subst. f_equal. apply IH. exact H.
  - injection H as -> ->. rewrite Z.compare_refl. apply IH. reflexivity.
Qed.
Lemma scmp_refl s : scmp s s = Eq. Proof. apply scmp_eq. reflexivity. Qed.
Lemma scmp_antisym s : forall t, scmp t s = CompOpp (scmp s t).
Proof.
  induction s as [|a s IH]; intros [|b t]; cbn; try reflexivity. rewrite Z.compare_antisym. destruct (a ?= b); cbn; auto.
Qed.
Lemma slt_trans a : forall b c, slt a b -> slt b c -> slt a c.
Proof.
  unfold slt. induction a as [|x a IH]; intros [|y b] [|z c]; cbn; intros H1 H2; try discriminate; try reflexivity.
  destruct (Z.compare_spec x y), (Z.compare_spec y z); try discriminate; subst.
  - rewrite Z.compare_refl. eauto.
  - rewrite (proj2 (Z.compare_lt_iff _ _)) by assumption. reflexivity.
  - rewrite (proj2 (Z.compare_lt_iff _ _)) by assumption. reflexivity.
  - rewrite (proj2 (Z.compare_lt_iff _ _)) by lia. reflexivity.
Qed.
Lemma slt_irr a : ~ slt a a. Proof. unfold slt. rewrite scmp_refl. discriminate. Qed.
Lemma slt_asym a b : slt a b -> ~ slt b a. Proof. intros H1 H2. exact (slt_irr a (slt_trans _ _ _ H1 H2)). Qed.
Lemma slt_gt a b : scmp a b = Gt <-> slt b a.
Proof. unfold slt. rewrite (scmp_antisym a b). destruct (scmp a b); cbn; split; congruence. Qed.
Lemma sle_lteq a b : sle a b <-> slt a b \/ a = b.
Proof. unfold sle, slt. rewrite <- (scmp_eq a b). destruct (scmp a b); split; intros; try tauto; try congruence; destruct H; congruence. Qed.
Lemma sle_not a b : sle a b <-> ~ slt b a.
Proof. unfold sle. rewrite slt_gt. tauto. Qed.
Lemma slt_not a b : slt a b <-> ~ sle b a.
Proof. rewrite sle_not. destruct (scmp a b) eqn:E; unfold slt; rewrite E; split; intros H; try congruence; exfalso; apply H; discriminate. Qed.
Lemma sle_refl a : sle a a. Proof. apply sle_lteq. auto. Qed.
Lemma sle_trans a b c : sle a b -> sle b c -> sle a c.
Proof. rewrite !sle_lteq. intros [H| ->] [G| ->]; auto. left. eapply slt_trans; eauto. Qed.
Lemma slt_le_trans a b c : slt a b -> sle b c -> slt a c.
Proof. rewrite sle_lteq. intros H [G| <-]; auto. eapply slt_trans; eauto. Qed.
Lemma sle_lt_trans a b c : sle a b -> slt b c -> slt a c.
Proof. rewrite sle_lteq. intros [G| ->] H; auto. eapply slt_trans; eauto. Qed.
Lemma slt_le a b : slt a b -> sle a b. Proof. rewrite sle_lteq. auto. Qed.
Lemma slt_total a b : slt a b \/ a = b \/ slt b a.
Proof. destruct (scmp a b) eqn:E; [apply scmp_eq in E; auto|auto|apply slt_gt in E; auto]. Qed.
Lemma sle_antisym a b : sle a b -> sle b a -> a = b.
Proof. rewrite !sle_lteq. intros [H|H] [G|G]; auto. exfalso. exact (slt_asym _ _ H G). Qed.
Lemma slt_neq a b : slt a b -> a <> b. Proof. intros H ->. exact (slt_irr b H). Qed.
Lemma sle_nil a : sle [] a. Proof. destruct a; unfold sle; cbn; discriminate. Qed.
Lemma nil_slt a : slt [] a <-> a <> []. Proof. destruct a; unfold slt; cbn; split; congruence. Qed.
Lemma sltb_spec a b : sltb a b = true <-> slt a b.
Proof. unfold sltb, slt. destruct (scmp a b); split; congruence. Qed.
Lemma sltb_ge a b : sltb a b = false <-> sle b a.
Proof. rewrite sle_not, <- sltb_spec. destruct (sltb a b); split; congruence. Qed.
Lemma sleb_spec a b : sleb a b = true <-> sle a b.
Proof. unfold sleb, sle. destruct (scmp a b); split; congruence. Qed.
Lemma sleb_gt a b : sleb a b = false <-> slt b a.
Proof. rewrite <- slt_gt. unfold sleb. destruct (scmp a b); split; congruence. Qed.
Lemma seqb_spec a b : seqb a b = true <-> a = b.
Proof. rewrite <- scmp_eq. unfold seqb. destruct (scmp a b); split; congruence. Qed.
Lemma slt_app_l p a b : slt (p ++ a) (p ++ b) <-> slt a b.
Proof. unfold slt. induction p as [|x p IH]; cbn; [tauto|]. rewrite Z.compare_refl. exact IH. Qed.
