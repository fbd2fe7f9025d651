(* Shared arithmetic and list lemmas.  No modelling content. *)
From Coq Require Export List ZArith Lia Bool Arith Permutation Sorted.
From Coq Require Export ZifyBool ZifyNat.
Export ListNotations.

(* The option monad used for "undefined behaviour = None". *)
Definition obind {A B} (x : option A) (f : A -> option B) : option B :=
  match x with Some a => f a | None => None end.
Notation "'do' x <- e ; k" := (obind e (fun x => k))
  (at level 200, x pattern, e at level 100, k at level 200, right associativity).

Lemma obind_some {A B} (x : option A) (f : A -> option B) b :
  obind x f = Some b <-> exists a, x = Some a /\ f a = Some b.
Proof.
  destruct x as [a|]; cbn; split; intro H.
  - exists a; auto.
  - destruct H as (a' & E & H); congruence.
  - discriminate.
  - destruct H as (a' & E & _); discriminate.
Qed.

Lemma some_inj {A} (a b : A) : Some a = Some b -> a = b.
Proof. congruence. Qed.

(* Functional update of one cell; None when out of bounds. *)
Fixpoint upd {A} (l : list A) (i : nat) (v : A) : list A :=
  match l, i with
  | [], _ => []
  | _ :: t, O => v :: t
  | h :: t, S j => h :: upd t j v
  end.

Lemma upd_length {A} (l : list A) i v : length (upd l i v) = length l.
Proof. revert i; induction l as [|h t IH]; intros [|i]; cbn; auto. Qed.

Lemma nth_error_upd {A} (l : list A) i j v :
  nth_error (upd l i v) j =
  if (Nat.eqb i j && Nat.ltb i (length l))%bool then Some v else nth_error l j.
Proof.
  revert i j; induction l as [|h t IH]; intros i j; cbn.
  - rewrite andb_false_r. destruct i; reflexivity.
  - destruct i as [|i], j as [|j]; cbn; auto.
    rewrite IH. reflexivity.
Qed.

Lemma nth_upd {A} (l : list A) i j v d :
  nth j (upd l i v) d = if (Nat.eqb i j && Nat.ltb i (length l))%bool then v else nth j l d.
Proof.
  revert i j; induction l as [|h t IH]; intros i j; cbn.
  - rewrite andb_false_r. destruct i; reflexivity.
  - destruct i as [|i], j as [|j]; cbn; auto.
    rewrite IH. reflexivity.
Qed.

Lemma upd_nth_same {A} (l : list A) i d : upd l i (nth i l d) = l.
Proof. revert i; induction l as [|h t IH]; intros [|i]; cbn; auto. f_equal; auto. Qed.

Lemma skipn_skipn' {A} (n m : nat) (l : list A) : skipn n (skipn m l) = skipn (m + n) l.
Proof.
  revert l; induction m as [|m IH]; intros l; cbn; auto.
  destruct l as [|x l]; cbn; auto. destruct n; reflexivity.
Qed.

Lemma firstn_add {A} (n m : nat) (l : list A) :
  firstn (n + m) l = firstn n l ++ firstn m (skipn n l).
Proof.
  revert l; induction n as [|n IH]; intros l; cbn; auto.
  destruct l as [|x l]; cbn.
  - destruct m; reflexivity.
  - f_equal; apply IH.
Qed.

Lemma skipn_firstn_app {A} n (l : list A) : firstn n l ++ skipn n l = l.
Proof. apply firstn_skipn. Qed.

Lemma nth_error_skipn {A} (l : list A) n i : nth_error (skipn n l) i = nth_error l (n + i).
Proof.
  revert l; induction n as [|n IH]; intros l; cbn; auto.
  destruct l as [|x l]; cbn; auto. destruct i; reflexivity.
Qed.

Lemma nth_skipn {A} (l : list A) n i d : nth i (skipn n l) d = nth (n + i) l d.
Proof.
  revert l; induction n as [|n IH]; intros l; cbn; auto.
  destruct l as [|x l]; cbn; auto. destruct i; reflexivity.
Qed.

Lemma nth_firstn {A} (l : list A) n i d : i < n -> nth i (firstn n l) d = nth i l d.
Proof.
  revert l i; induction n as [|n IH]; intros l i Hi; [lia|].
  destruct l as [|x l]; cbn; auto. destruct i as [|i]; auto. apply IH; lia.
Qed.

Lemma nth_error_firstn {A} (l : list A) n i :
  nth_error (firstn n l) i = if i <? n then nth_error l i else None.
Proof.
  revert l i; induction n as [|n IH]; intros l i; cbn.
  - destruct i; reflexivity.
  - destruct l as [|x l]; cbn.
    + destruct i as [|i]; cbn; auto. destruct n as [|n]; cbn; auto. destruct (i <=? n); reflexivity.
    + destruct i as [|i]; cbn; auto. rewrite IH. reflexivity.
Qed.

Lemma nth_error_nth_len {A} (l : list A) i d : i < length l -> nth_error l i = Some (nth i l d).
Proof.
  revert i; induction l as [|x l IH]; intros i Hi; cbn in *; [lia|].
  destruct i; auto. apply IH; lia.
Qed.

Lemma list_ext {A} (a b : list A) :
  (forall i, nth_error a i = nth_error b i) -> a = b.
Proof.
  revert b; induction a as [|x a IH]; intros [|y b] H; auto.
  - specialize (H 0); discriminate.
  - specialize (H 0); discriminate.
  - f_equal.
    + specialize (H 0); cbn in H; congruence.
    + apply IH; intro i; exact (H (S i)).
Qed.

(* Boolean "all distinct" and its reflection are used by the Examples only. *)
Lemma NoDup_map_inj {A B} (f : A -> B) l : NoDup (map f l) -> NoDup l.
Proof.
  induction l as [|x l IH]; cbn; intro H; [constructor|].
  inversion H as [|? ? Hn Hd]; subst. constructor; auto.
  intro Hin; apply Hn, in_map, Hin.
Qed.

Lemma StronglySorted_app {A} (R : A -> A -> Prop) a b :
  StronglySorted R (a ++ b) <->
  StronglySorted R a /\ StronglySorted R b /\ (forall x y, In x a -> In y b -> R x y).
Proof.
  induction a as [|x a IH]; cbn.
  - split; [intro H; repeat split; auto; [constructor | intros ? ? []] | intros (_ & H & _); auto].
  - split.
    + intro H; inversion H as [|? ? Hs Hf]; subst.
      apply IH in Hs. destruct Hs as (Ha & Hb & Hab).
      rewrite Forall_app in Hf; destruct Hf as [Hfa Hfb].
      repeat split; auto.
      * constructor; auto.
      * intros u v [->|Hu] Hv; auto. rewrite Forall_forall in Hfb; auto.
    + intros (Ha & Hb & Hab). inversion Ha as [|? ? Hs Hf]; subst.
      constructor.
      * apply IH; repeat split; auto; intros; apply Hab; auto.
      * rewrite Forall_app; split; auto. rewrite Forall_forall; intros; apply Hab; auto.
Qed.

(* Powers of two over Z. *)
Lemma pow2_pos n : (0 <= n -> 0 < 2 ^ n)%Z.
Proof. intro; apply Z.pow_pos_nonneg; lia. Qed.

Lemma Zlor_disjoint_add a b k :
  (0 <= k -> 0 <= a < 2 ^ k -> Z.lor a (Z.shiftl b k) = a + b * 2 ^ k)%Z.
Proof.
  intros Hk Ha.
  rewrite Z.shiftl_mul_pow2 by lia.
  assert (Hand : Z.land a (b * 2 ^ k) = 0%Z).
  { apply Z.bits_inj'; intros i Hi. rewrite Z.land_spec, Z.bits_0.
    destruct (Z_lt_le_dec i k) as [Hlt|Hge].
    - rewrite Z.mul_pow2_bits_low by lia. apply andb_false_r.
    - assert (Z.testbit a i = false).
      { destruct (Z.eq_dec a 0) as [->|Hn]; [apply Z.bits_0|].
        apply Z.bits_above_log2; [lia|].
        apply Z.lt_le_trans with k; auto. apply Z.log2_lt_pow2; lia. }
      rewrite H; reflexivity. }
  rewrite Z.add_nocarry_lxor by exact Hand.
  rewrite <- Z.lxor_lor; auto.
Qed.

Lemma Zland_ones_mod a n : (0 <= n -> Z.land a (2 ^ n - 1) = a mod 2 ^ n)%Z.
Proof.
  intro Hn. rewrite <- Z.ones_equiv || idtac.
  replace (2 ^ n - 1)%Z with (Z.ones n) by (rewrite Z.ones_equiv; lia).
  apply Z.land_ones; auto.
Qed.
