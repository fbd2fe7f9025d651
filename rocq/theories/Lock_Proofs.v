(* Proofs about the write lock. *)
From Verif Require Import Util Lock_Model Lock_Spec.

Ltac upd := unfold upd_f in *; cbn [file holds mid wfile writer lockobj changes] in *.
Ltac case_ids := repeat match goal with
  | H : context[(?x =? ?y)%nat] |- _ => destruct (Nat.eqb_spec x y); subst
  | |- context[(?x =? ?y)%nat] => destruct (Nat.eqb_spec x y); subst end.
(* at most one client holds or is probing, and only while the file exists *)
Definition fs_inv (s : lstate) : Prop :=
  (forall i, holds s i || mid s i = true -> file s = true) /\
  (forall i j, holds s i || mid s i = true -> holds s j || mid s j = true -> i = j) /\
  (forall i, holds s i = true -> mid s i = true -> False).
Lemma fs_inv_init : fs_inv l_init.
Proof. repeat split; cbn; intros; discriminate. Qed.
Lemma fs_inv_step s a s' : fs_inv s -> fs_step s a s' -> (forall i, a = Close i -> file s = false) -> fs_inv s'.
Proof.
  intros (I1 & I2 & I3) H HC. inversion H; subst.
  - assert (N : forall j, holds s j || mid s j = false) by (intros j; destruct (holds s j || mid s j) eqn:E; auto; apply I1 in E; congruence).
    repeat split; upd; auto.
    + intros j k Hj Hk. pose proof (N j). pose proof (N k). case_ids; auto; congruence.
    + intros j Hj Hm. pose proof (N j) as Nj. case_ids; [rewrite Hm, orb_true_r in Nj|rewrite Hj in Nj]; discriminate.
  - repeat split; auto.
  - assert (N : forall j, j <> i -> holds s j || mid s j = false).
    { intros j Hj. destruct (holds s j || mid s j) eqn:E; auto. exfalso. apply Hj. apply I2; auto. rewrite H0. auto. }
    assert (M : mid s i = false) by (destruct (mid s i) eqn:E; auto; exfalso; eauto).
    assert (N' : forall j, (if (j =? i)%nat then false else holds s j) || mid s j = false) by (intros j; case_ids; [rewrite M; auto|auto]).
    repeat split; upd.
    + intros j Hj. rewrite N' in Hj. discriminate.
    + intros j k Hj. rewrite N' in Hj. discriminate.
    + intros j Hj Hm. pose proof (N' j) as Nj. rewrite Hm, orb_true_r in Nj. discriminate.
  - specialize (HC i eq_refl). repeat split; upd; auto. intros j Hj. apply I1 in Hj. congruence.
  - assert (N : forall j, holds s j || mid s j = false) by (intros j; destruct (holds s j || mid s j) eqn:E; auto; apply I1 in E; congruence).
    repeat split; upd; auto.
    + intros j k Hj Hk. pose proof (N j). pose proof (N k). case_ids; auto; congruence.
    + intros j Hj Hm. pose proof (N j) as Nj. case_ids; rewrite Hj in Nj; discriminate.
  - repeat split; auto.
  - assert (N : forall j, j <> i -> holds s j || mid s j = false).
    { intros j Hj. destruct (holds s j || mid s j) eqn:E; auto. exfalso. apply Hj. apply I2; auto. rewrite H0. apply orb_true_r. }
    assert (M : holds s i = false) by (destruct (holds s i) eqn:E; auto; exfalso; eauto).
    assert (N' : forall j, holds s j || (if (j =? i)%nat then false else mid s j) = false) by (intros j; case_ids; [rewrite M; auto|auto]).
    repeat split; upd.
    + intros j Hj. rewrite N' in Hj. discriminate.
    + intros j k Hj. rewrite N' in Hj. discriminate.
    + intros j Hj Hm. pose proof (N' j) as Nj. rewrite Hj in Nj. discriminate.
Qed.
Lemma fs_careful_exclusive l s : careful fs_step l_init l s -> exclusive (holds s).
Proof.
  assert (G : forall s0 s1, careful fs_step s0 l s1 -> fs_inv s0 -> fs_inv s1).
  { intros s0 s1 H. induction H; auto. intros I. apply IHcareful. eapply fs_inv_step; eauto. }
  intros H. destruct (G _ _ H fs_inv_init) as (_ & I2 & _). intros i j Hi Hj. apply I2; [rewrite Hi|rewrite Hj]; auto.
Qed.
Definition ram_inv (s : lstate) : Prop :=
  (forall i, holds s i = true -> file s = true) /\ (forall i j, holds s i = true -> holds s j = true -> i = j) /\ (forall i, mid s i = false).
Lemma ram_uninterrupted_exclusive l z : uninterrupted l_init l z -> exclusive (holds z).
Proof.
  assert (G : forall s0 s1, uninterrupted s0 l s1 -> ram_inv s0 -> ram_inv s1).
  { intros s0 s1 H. induction H; auto; intros (I1 & I2 & I3); apply IHuninterrupted; auto.
    - inversion H; subst.
      + inversion H0; subst. assert (N : forall j, holds s j = false) by (intros j; destruct (holds s j) eqn:E; auto; apply I1 in E; congruence).
        repeat split; upd; auto.
        * intros j k Hj Hk. pose proof (N j). pose proof (N k). case_ids; auto; congruence.
        * intros j. case_ids; auto.
      + inversion H0; subst. match goal with M : mid _ _ = true |- _ => rewrite I3 in M; discriminate M end.
    - inversion H; subst. repeat split; upd; auto.
      + intros j Hj. case_ids; [discriminate|]. exfalso. apply n. apply I2; auto.
      + intros j k Hj Hk. case_ids; try discriminate. apply I2; auto.
    - inversion H; subst. repeat split; auto. }
  intros H. destruct (G _ _ H) as (_ & I2 & _); [|exact I2]. repeat split; cbn; intros; discriminate.
Qed.
(* writers and readers *)
Definition w_inv (s : wstate) : Prop :=
  (forall i, writer s i || lockobj s i = true -> wfile s = true) /\
  (forall i j, writer s i || lockobj s i = true -> writer s j || lockobj s j = true -> i = j) /\
  (forall i, changes s i = true -> lockobj s i = true) /\ (forall i, writer s i = true -> lockobj s i = true -> False).
Lemma w_free s : w_inv s -> wfile s = false -> forall j, writer s j = false /\ lockobj s j = false.
Proof. intros (I1 & _) F j. destruct (writer s j) eqn:E1, (lockobj s j) eqn:E2; auto; exfalso; specialize (I1 j); rewrite E1, E2 in I1; cbn in I1; rewrite I1 in F by auto; discriminate. Qed.
Lemma w_inv_step s a : w_inv s -> (match a with OpenWriter i => writer s i = true \/ wfile s = false | Modify i => lockobj s i = true \/ wfile s = false | IsLocked _ => wfile s = false | _ => True end) -> w_inv (wstep s a).
Proof.
  intros I HP. pose proof I as (I1 & I2 & I3 & I4). destruct a as [i|i|i|i|i]; cbn [wstep].
  - destruct (writer s i) eqn:Wi; auto. destruct HP as [|HP]; [discriminate|]. rewrite HP. pose proof (w_free s I HP) as N. repeat split; upd; auto.
    + intros j k Hj Hk. destruct (N j) as [A B], (N k) as [C D]. rewrite A, B in Hj. rewrite C, D in Hk. case_ids; auto; discriminate.
    + intros j Hj Hk. destruct (N j). congruence.
  - destruct (writer s i) eqn:Wi; auto.
    assert (N : forall j, j <> i -> writer s j || lockobj s j = false).
    { intros j Hj. destruct (writer s j || lockobj s j) eqn:E; auto. exfalso. apply Hj, I2; auto. rewrite Wi. auto. }
    assert (M : lockobj s i = false) by (destruct (lockobj s i) eqn:E; auto; exfalso; eauto).
    assert (N' : forall j, (if (j =? i)%nat then false else writer s j) || lockobj s j = false) by (intros j; case_ids; auto).
    repeat split; upd; auto.
    + intros j Hj. rewrite N' in Hj. discriminate.
    + intros j k Hj. rewrite N' in Hj. discriminate.
    + intros j Hj Hk. pose proof (N' j) as Nj. rewrite Hk, orb_true_r in Nj. discriminate.
  - destruct (lockobj s i) eqn:Li.
    + repeat split; upd; auto. intros j Hj. case_ids; auto.
    + destruct HP as [|HP]; [discriminate|]. rewrite HP. pose proof (w_free s I HP) as N. repeat split; upd; auto.
      * intros j k Hj Hk. destruct (N j) as [A B], (N k) as [C D]. rewrite A, B in Hj. rewrite C, D in Hk. case_ids; auto; discriminate.
      * intros j Hj. case_ids; auto.
      * intros j Hj Hk. destruct (N j). congruence.
  - destruct (changes s i) eqn:Ci; auto. rewrite (I3 i Ci).
    assert (N : forall j, j <> i -> writer s j || lockobj s j = false).
    { intros j Hj. destruct (writer s j || lockobj s j) eqn:E; auto. exfalso. apply Hj, I2; auto. rewrite (I3 i Ci). apply orb_true_r. }
    assert (M : writer s i = false) by (destruct (writer s i) eqn:E; auto; exfalso; eauto).
    assert (N' : forall j, writer s j || (if (j =? i)%nat then false else lockobj s j) = false) by (intros j; case_ids; auto; rewrite M; auto).
    repeat split; upd; auto.
    + intros j Hj. rewrite N' in Hj. discriminate.
    + intros j k Hj. rewrite N' in Hj. discriminate.
    + intros j Hj. case_ids; [discriminate|auto].
    + intros j Hj Hk. pose proof (N' j) as Nj. rewrite Hj in Nj. discriminate.
  - pose proof (w_free s I HP) as N. repeat split; upd; auto. intros j Hj. destruct (N j) as [A B]. rewrite A, B in Hj. discriminate.
Qed.
Lemma polite_exclusive l : polite w_init l -> exclusive (active (wrun w_init l)).
Proof.
  assert (G : forall s, polite s l -> w_inv s -> w_inv (wrun s l)).
  { induction l as [|a l IH]; intros s H I; cbn; auto. inversion H; subst. apply IH; auto. apply w_inv_step; auto. }
  intros H. destruct (G _ H) as (I1 & I2 & I3 & I4); [repeat split; cbn; intros; discriminate|].
  intros i j Hi Hj. unfold active in *. apply I2; apply orb_true_iff; [apply orb_true_iff in Hi|apply orb_true_iff in Hj]; intuition.
Qed.
(* refutations *)
Lemma fs_close_breaks : exists l s, lrun fs_step l_init l s /\ ~ exclusive (holds s).
Proof.
  exists [Obtain 0; Release 0; Obtain 1; Close 0; Obtain 2]. eexists. split.
  - eapply L_cons; [apply F_obtain; reflexivity|]. eapply L_cons; [apply F_release; reflexivity|]. eapply L_cons; [apply F_obtain; reflexivity|].
    eapply L_cons; [apply F_close; reflexivity|]. eapply L_cons; [apply F_obtain; reflexivity|]. apply L_nil.
  - intros E. specialize (E 1 2 eq_refl eq_refl). discriminate.
Qed.
Lemma ram_race : exists l s, lrun ram_step l_init l s /\ ~ exclusive (holds s).
Proof.
  exists [Check 0; Check 1; Finish 0; Finish 1]. eexists. split.
  - eapply L_cons; [apply R_check; reflexivity|]. eapply L_cons; [apply R_check; reflexivity|]. eapply L_cons; [apply R_touch; reflexivity|].
    eapply L_cons; [apply R_touch; reflexivity|]. apply L_nil.
  - intros E. specialize (E 0 1 eq_refl eq_refl). discriminate.
Qed.
Lemma failed_open_breaks : ~ exclusive (active (wrun w_init [OpenWriter 0; OpenWriter 1; OpenWriter 1])).
Proof. intros E. specialize (E 0 1 eq_refl eq_refl). discriminate. Qed.
Lemma query_breaks : ~ exclusive (active (wrun w_init [OpenWriter 0; IsLocked 1; OpenWriter 1])).
Proof. intros E. specialize (E 0 1 eq_refl eq_refl). discriminate. Qed.
Lemma retry_breaks : ~ exclusive (active (wrun w_init [OpenWriter 0; Modify 1; Modify 1])).
Proof. intros E. specialize (E 0 1 eq_refl eq_refl). discriminate. Qed.
