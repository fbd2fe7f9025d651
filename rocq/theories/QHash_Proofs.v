From Verif Require Import Util Strcmp QHash_Model QHash_Spec.
Open Scope Z_scope.

Section Ind.
  Variable P : qry -> Prop.
  Hypothesis H : forall b k subs, Forall (fun c : Z * qry => P (snd c)) subs -> P (Qn b k subs).
  Fixpoint qry_ind2 (q : qry) : P q :=
    match q with
    | Qn b k subs => H b k subs ((fix go (l : list (Z * qry)) : Forall (fun c : Z * qry => P (snd c)) l :=
                                   match l with [] => Forall_nil _ | c :: l' => Forall_cons c (qry_ind2 (snd c)) (go l') end) subs)
    end.
End Ind.
Lemma every_iff P b k subs : every P (Qn b k subs) <-> P b k (length subs) /\ Forall (fun c : Z * qry => every P (snd c)) subs.
Proof.
  cbn [every]. split; intros [H1 H2]; (split; [exact H1|]).
  - clear H1. induction subs as [|c l IH]; constructor; [apply H2|apply IH, H2].
  - clear H1. induction H2 as [|c l Hc _ IH]; [exact I|split; assumption].
Qed.
Lemma feq_nz f g : zerof f = false -> feq f g = true -> f = g.
Proof.
  unfold feq. intros Hz H. apply andb_prop in H. destruct H as [_ H]. rewrite Hz, orb_false_r in H. apply Z.eqb_eq in H. exact H.
Qed.
Lemma feq_refl f : nan f = false -> feq f f = true.
Proof. unfold feq. intros ->. rewrite Z.eqb_refl. reflexivity. Qed.
Lemma seqb_refl s : seqb s s = true. Proof. apply seqb_spec. reflexivity. Qed.
Lemma opt_eqb_eq a b : opt_eqb a b = true -> a = b.
Proof. destruct a, b; cbn; try discriminate; [|reflexivity]. intros H. apply seqb_spec in H. congruence. Qed.
Lemma opt_eqb_refl a : opt_eqb a a = true. Proof. destruct a; cbn; [apply seqb_refl|reflexivity]. Qed.
Lemma range_eq_eq r o : range_eq r o = true -> r = o.
Proof.
  unfold range_eq. intros H. repeat (apply andb_prop in H; destruct H as [H ?]).
  apply seqb_spec in H. destruct r, o; cbn in *.
  repeat match goal with H : opt_eqb _ _ = true |- _ => apply opt_eqb_eq in H | H : Bool.eqb _ _ = true |- _ => apply Bool.eqb_prop in H end. congruence.
Qed.
Lemma range_eq_refl r : range_eq r r = true.
Proof. unfold range_eq. rewrite seqb_refl, !opt_eqb_refl, !Bool.eqb_reflx. reflexivity. Qed.
Lemma all_eqb_eq {A} (f : A -> A -> bool) l : forall m, (forall a b, In a l -> f a b = true -> a = b) -> all_eqb f l m = true -> l = m.
Proof.
  induction l as [|a l IH]; intros [|b m] Hf H; cbn in H; try discriminate; [reflexivity|].
  apply andb_prop in H. destruct H as [H1 H2]. apply Hf in H1; [|left; reflexivity]. apply IH in H2; [congruence|]. intros; apply Hf; [right|]; auto.
Qed.
Lemma all_eqb_refl {A} (f : A -> A -> bool) l : (forall a, In a l -> f a a = true) -> all_eqb f l l = true.
Proof. induction l as [|a l IH]; intros Hf; cbn; [reflexivity|]. rewrite Hf, IH; [reflexivity| |left; reflexivity]. intros; apply Hf; right; auto. Qed.
Lemma oand_true a b : oand a b = Some true <-> a = Some true /\ b = Some true.
Proof. destruct a as [[]|]; cbn; intuition discriminate. Qed.

(* the loop over the sub-queries *)
Section L.
  Variable f : (Z * qry) -> (Z * qry) -> option bool.
  Fixpoint subs_eq (l m : list (Z * qry)) : option bool :=
    match l, m with [], [] => Some true | c :: l', c' :: m' => oand (f c c') (subs_eq l' m') | _, _ => Some false end.
  Lemma subs_eq_true l : forall m, subs_eq l m = Some true <-> Forall2 (fun c c' => f c c' = Some true) l m.
  Proof.
    induction l as [|c l IH]; intros [|c' m]; cbn [subs_eq]; split; intros H; try discriminate; try (inversion H; fail); try constructor; try reflexivity.
    - apply oand_true in H. apply H. - apply oand_true in H. apply IH, H.
    - inversion H; subst. apply oand_true. split; [assumption|]. apply IH. assumption.
  Qed.
End L.
Section P.
  Variables same fsame : qry -> qry -> bool.
  Lemma raw_eq_unfold b k s b' k' s' : raw_eq same fsame (Qn b k s) (Qn b' k' s') =
    if negb (ty k =? ty k') then None else
    if match k with KConst _ => fsame (Qn b k s) (Qn b' k' s') | _ => false end then Some true else
    oand (own_eq k k') (if negb (Nat.eqb (length s) (length s')) then Some false else
                        oand (subs_eq (sub_eq same (use_of k) (raw_eq same fsame)) s s') (Some (own_eq_after k k'))).
  Proof.
    reflexivity.
  Qed.
  Hypothesis Hs : sound same fsame.

  Lemma own_ok b k k' n hs : no_zero b k n -> own_eq k k' = Some true -> own_eq_after k k' = true -> own_hash k hs = own_hash k' hs /\ use_of k = use_of k'.
  Proof.
    intros Hz H Ha. destruct k as [| | | |[]| | | | | | | | | | | | |], k' as [| | | |[]| | | | | | | | | | | | |]; cbn [own_eq] in H; try discriminate; cbn [own_eq_after] in Ha;
      try (apply some_inj in H; try discriminate);
      repeat match goal with H : _ && _ = true |- _ => apply andb_prop in H; destruct H end;
      repeat match goal with
        | H : seqb _ _ = true |- _ => apply seqb_spec in H | H : opt_eqb _ _ = true |- _ => apply opt_eqb_eq in H
        | H : Bool.eqb _ _ = true |- _ => apply Bool.eqb_prop in H | H : range_eq _ _ = true |- _ => apply range_eq_eq in H
        | H : (_ =? _)%Z = true |- _ => apply Z.eqb_eq in H end; subst; try (split; reflexivity).
    - apply all_eqb_eq in H0; [subst; split; reflexivity|]. intros [t x] [t' x'] Hi E. cbn in E. apply andb_prop in E. destruct E as [E1 E2].
      apply seqb_spec in E1. cbn [no_zero] in Hz. rewrite Forall_forall in Hz. apply Hz in Hi. apply feq_nz in E2; [congruence|exact Hi].
    - apply all_eqb_eq in H0; [subst; split; reflexivity|]. intros [x l] [x' l'] _ E. cbn in E. apply andb_prop in E. destruct E as [E1 E2].
      apply Z.eqb_eq in E1. apply all_eqb_eq in E2; [congruence|]. intros. apply seqb_spec. assumption.
    - apply feq_nz in H0; [subst; split; reflexivity|exact Hz].
    - apply all_eqb_eq in H0; [subst; split; reflexivity|]. intros. apply seqb_spec. assumption.
  Qed.
  Lemma seq_ext {A} (f g : A -> option Z) l m : Forall2 (fun a b => f a = g b) l m -> seq_o (map f l) = seq_o (map g m).
  Proof. induction 1 as [|a b l m H _ IH]; [reflexivity|]. cbn. rewrite H, IH. reflexivity. Qed.

  Lemma raw_ok a : forall b, every no_zero a -> raw_eq same fsame a b = Some true -> raw_hash a = raw_hash b /\ ty (kd a) = ty (kd b).
  Proof.
    induction a as [x k s IH] using qry_ind2. intros [x' k' s'] Hz H. apply every_iff in Hz. destruct Hz as [Hz Hzs].
    rewrite raw_eq_unfold in H. destruct (ty k =? ty k') eqn:T; cbn [negb] in H; [|discriminate]. apply Z.eqb_eq in T. cbn [kd]. split; [|exact T].
    destruct (match k with KConst _ => fsame (Qn x k s) (Qn x' k' s') | _ => false end) eqn:F.
    { assert (G : k = k' /\ s = s') by (destruct k; try discriminate; apply (proj2 Hs) in F; exact F). destruct G as [-> ->]. reflexivity. }
    apply oand_true in H. destruct H as [H1 H]. destruct (Nat.eqb (length s) (length s')); cbn [negb] in H; [|discriminate].
    apply oand_true in H. destruct H as [H2 H3]. apply some_inj in H3. apply subs_eq_true in H2.
    cbn [raw_hash]. assert (E : forall hs, own_hash k hs = own_hash k' hs) by (intros; eapply own_ok; eauto).
    assert (U : use_of k = use_of k') by (exact (proj2 (own_ok x k k' _ [] Hz H1 H3))). rewrite <- U.
    match goal with |- obind ?a _ = obind ?b _ => cut (a = b); [intros ->; destruct b; cbn [obind]; [apply E|reflexivity]|] end. apply seq_ext.
    clear - Hs IH Hzs H2. revert IH Hzs. induction H2 as [|[o c] [o' c'] l m Hc _ IHl]; intros IH Hzs; [constructor|].
    inversion IH as [|? ? I1 I2]; subst. inversion Hzs as [|? ? Z1 Z2]; subst. constructor; [|apply IHl; assumption]. cbn [fst snd] in *.
    assert (Q : q_eq_of same (raw_eq same fsame) c c' = Some true -> raw_hash c = raw_hash c' /\ ty (kd c) = ty (kd c')).
    { unfold q_eq_of. destruct (same c c') eqn:S1; [intros _; apply (proj1 Hs) in S1; subst; split; reflexivity|].
      destruct ((ty (kd c) =? ty (kd c')) && feq (boost c) (boost c')); [|discriminate]. intros G. apply I1; assumption. }
    unfold sub_eq in Hc. cbn [fst snd] in Hc. destruct (use_of k); unfold sub_hash, tag_hash.
    - destruct (o =? o') eqn:O; [|discriminate]. apply Z.eqb_eq in O. apply Q in Hc. destruct Hc as [-> ->]. rewrite O. reflexivity.
    - apply Q in Hc. destruct Hc as [-> ->]. reflexivity.
    - apply I1 in Hc; [|assumption]. destruct Hc as [-> _]. reflexivity.
  Qed.
  Lemma eq_hash a b : every no_zero a -> q_eq same fsame a b = Some true -> q_hash a = q_hash b.
  Proof.
    intros Hz. unfold q_eq, q_eq_of. destruct (same a b) eqn:S1; [intros _; apply (proj1 Hs) in S1; subst; reflexivity|].
    destruct ((ty (kd a) =? ty (kd b)) && feq (boost a) (boost b)); [|discriminate]. intros G. apply raw_ok in G; [|exact Hz]. destruct G as [G1 G2].
    unfold q_hash. rewrite G1. destruct (raw_hash b); cbn [obind]; [|reflexivity]. unfold tag_hash. rewrite G2. reflexivity.
  Qed.

  (* equal queries differ in what the comparison does not look at *)
  Lemma own_erase b k k' n : no_zero b k n -> own_eq k k' = Some true -> own_eq_after k k' = true -> ty k = ty k' -> erase_kind k = erase_kind k'.
  Proof.
    intros Hz H Ha T. destruct k as [| | | |[]| | | | | | | | | | | | |], k' as [| | | |[]| | | | | | | | | | | | |]; cbn [own_eq] in H; try discriminate H; cbn [own_eq_after] in Ha;
      try (apply some_inj in H; try discriminate);
      repeat match goal with H : _ && _ = true |- _ => apply andb_prop in H; destruct H end;
      repeat match goal with
        | H : seqb _ _ = true |- _ => apply seqb_spec in H | H : opt_eqb _ _ = true |- _ => apply opt_eqb_eq in H
        | H : Bool.eqb _ _ = true |- _ => apply Bool.eqb_prop in H | H : range_eq _ _ = true |- _ => apply range_eq_eq in H
        | H : (_ =? _)%Z = true |- _ => apply Z.eqb_eq in H end; subst; try reflexivity.
    - apply all_eqb_eq in H0; [subst; reflexivity|]. intros [t x] [t' x'] Hi E. cbn in E. apply andb_prop in E. destruct E as [E1 E2].
      apply seqb_spec in E1. cbn [no_zero] in Hz. rewrite Forall_forall in Hz. apply Hz in Hi. apply feq_nz in E2; [congruence|exact Hi].
    - apply all_eqb_eq in H0; [subst; reflexivity|]. intros [x l] [x' l'] _ E. cbn in E. apply andb_prop in E. destruct E as [E1 E2].
      apply Z.eqb_eq in E1. apply all_eqb_eq in E2; [congruence|]. intros. apply seqb_spec. assumption.
    - destruct typed, typed0; try discriminate T; reflexivity.
    - apply feq_nz in H0; [subst; reflexivity|exact Hz].
    - apply all_eqb_eq in H0; [subst; reflexivity|]. intros. apply seqb_spec. assumption.
  Qed.
  Lemma feq_norm f g : feq f g = true -> norm0 f = norm0 g.
  Proof.
    unfold feq, norm0. intros H. apply andb_prop in H. destruct H as [_ H]. apply orb_prop in H. destruct H as [H|H]; [apply Z.eqb_eq in H; subst; reflexivity|].
    apply andb_prop in H. destruct H as [-> ->]. reflexivity.
  Qed.
  Lemma raw_erase a : forall b s, every no_zero a -> raw_eq same fsame a b = Some true -> (s = true \/ feq (boost a) (boost b) = true) -> erase s a = erase s b.
  Proof.
    induction a as [x k s IH] using qry_ind2. intros [x' k' s'] sp Hz H HB. apply every_iff in Hz. destruct Hz as [Hz Hzs].
    rewrite raw_eq_unfold in H. destruct (ty k =? ty k') eqn:T; cbn [negb] in H; [|discriminate]. apply Z.eqb_eq in T. cbn [boost] in HB.
    assert (B : (if sp then 0 else norm0 x) = (if sp then 0 else norm0 x')) by (destruct HB as [->|HB]; [reflexivity|destruct sp; [reflexivity|apply feq_norm; exact HB]]).
    cbn [erase]. rewrite B. clear B HB.
    destruct (match k with KConst _ => fsame (Qn x k s) (Qn x' k' s') | _ => false end) eqn:F.
    { assert (G : k = k' /\ s = s') by (destruct k; try discriminate; apply (proj2 Hs) in F; exact F). destruct G as [-> ->]. reflexivity. }
    apply oand_true in H. destruct H as [H1 H]. destruct (Nat.eqb (length s) (length s')); cbn [negb] in H; [|discriminate].
    apply oand_true in H. destruct H as [H2 H3]. apply some_inj in H3. apply subs_eq_true in H2.
    rewrite (own_erase _ _ _ _ Hz H1 H3 T). f_equal.
    assert (R : is_raw k = is_raw k' /\ (forall o : Z, match k with KBool _ _ => o | _ => 0 end = match k' with KBool _ _ => o | _ => 0 end)) by (destruct k as [| | | | | | |[]| | | | | | | | | |], k' as [| | | | | | |[]| | | | | | | | | |]; try discriminate T; split; reflexivity).
    destruct R as [R1 R2]. rewrite <- R1.
    clear - Hs IH Hzs H2 R2. revert IH Hzs. induction H2 as [|[o c] [o' c'] l m Hc _ IHl]; intros IH Hzs; [reflexivity|].
    inversion IH as [|? ? I1 I2]; subst. inversion Hzs as [|? ? Z1 Z2]; subst. cbn [map fst snd]. f_equal; [|apply IHl; assumption]. cbn [fst snd] in *.
    assert (Q : q_eq_of same (raw_eq same fsame) c c' = Some true -> erase (is_raw k) c = erase (is_raw k) c').
    { unfold q_eq_of. destruct (same c c') eqn:S1; [intros _; apply (proj1 Hs) in S1; subst; reflexivity|].
      destruct (ty (kd c) =? ty (kd c')); cbn [andb]; [|discriminate]. destruct (feq (boost c) (boost c')) eqn:FB; [|discriminate]. intros G. apply I1; auto. }
    rewrite R2. unfold sub_eq in Hc. cbn [fst snd] in Hc. rewrite <- R2. destruct (use_of k) eqn:U.
    - destruct (o =? o') eqn:O; [|discriminate]. apply Z.eqb_eq in O. apply Q in Hc. rewrite Hc, O, R2. reflexivity.
    - apply Q in Hc. rewrite Hc. destruct k; try discriminate U; rewrite <- R2; reflexivity.
    - assert (RR : is_raw k = true) by (destruct k; try discriminate U; reflexivity). rewrite RR. rewrite (I1 c' true) by auto. destruct k; try discriminate U; rewrite <- R2; reflexivity.
  Qed.
  Lemma eq_erase a b : every no_zero a -> q_eq same fsame a b = Some true -> erase false a = erase false b.
  Proof.
    intros Hz. unfold q_eq, q_eq_of. destruct (same a b) eqn:S1; [intros _; apply (proj1 Hs) in S1; subst; reflexivity|].
    destruct (ty (kd a) =? ty (kd b)); cbn [andb]; [|discriminate]. destruct (feq (boost a) (boost b)) eqn:FB; [|discriminate]. intros G. apply raw_erase; auto.
  Qed.

  (* a query equals a copy of itself *)
  Lemma own_refl b k n : comparable b k n -> own_eq k k = Some true /\ own_eq_after k k = true.
  Proof.
    intros [Hb Hc]. destruct k as [| | | |[]| | | | | | | | | | | | |]; cbn [own_eq own_eq_after] in *; rewrite ?seqb_refl, ?opt_eqb_refl, ?range_eq_refl, ?Z.eqb_refl, ?Bool.eqb_reflx;
      try (split; reflexivity); try contradiction.
    - split; [|reflexivity]. rewrite all_eqb_refl; [reflexivity|]. intros c Hi. rewrite seqb_refl, feq_refl; [reflexivity|]. rewrite Forall_forall in Hc. apply Hc, Hi.
    - split; [|reflexivity]. rewrite all_eqb_refl; [reflexivity|]. intros p _. rewrite Z.eqb_refl, all_eqb_refl; [reflexivity|]. intros; apply seqb_refl.
    - split; [|reflexivity]. rewrite feq_refl; [reflexivity|exact Hc].
    - split; [|reflexivity]. rewrite all_eqb_refl; [reflexivity|]. intros; apply seqb_refl.
  Qed.
  Lemma raw_refl q : every comparable q -> raw_eq same fsame q q = Some true.
  Proof.
    induction q as [b k s IH] using qry_ind2. intros H. apply every_iff in H. destruct H as [Hk Hl].
    rewrite raw_eq_unfold, Z.eqb_refl, Nat.eqb_refl. cbn [negb]. destruct (match k with KConst _ => _ | _ => false end); [reflexivity|].
    destruct (own_refl _ _ _ Hk) as [-> ->]. cbn [oand]. apply oand_true. split; [|reflexivity]. apply subs_eq_true.
    clear Hk. induction s as [|[o c] s IHs]; [constructor|]. inversion IH as [|? ? I1 I2]; subst. inversion Hl as [|? ? L1 L2]; subst. constructor; [|apply IHs; assumption].
    cbn [snd] in *. assert (Q : q_eq_of same (raw_eq same fsame) c c = Some true).
    { unfold q_eq_of. destruct (same c c); [reflexivity|]. rewrite Z.eqb_refl. cbn [andb]. rewrite feq_refl; [apply I1, L1|]. destruct c. apply every_iff in L1. apply L1. }
    unfold sub_eq. cbn [fst snd]. rewrite Z.eqb_refl. destruct (use_of k); [exact Q|exact Q|apply I1, L1].
  Qed.
  Lemma eq_refl_ok q : every comparable q -> q_eq same fsame q q = Some true.
  Proof.
    intros H. unfold q_eq, q_eq_of. destruct (same q q); [reflexivity|]. rewrite Z.eqb_refl. cbn [andb].
    rewrite feq_refl; [apply raw_refl, H|]. destruct q. apply every_iff in H. apply H.
  Qed.

  (* the comparison is defined *)
  Lemma own_def k k' b b' n n' : simple b k n -> simple b' k' n' -> ty k = ty k' -> exists r, own_eq k k' = Some r.
  Proof.
    intros H H' T. destruct k as [| | | |[]| | |[] ?| | | | | | | | | |], k' as [| | | |[]| | |[] ?| | | | | | | | | |]; cbn in H, H', T; try contradiction; try discriminate T; eexists; reflexivity.
  Qed.
  Lemma raw_def a : forall b, every simple a -> every simple b -> (ty (kd a) =? ty (kd b)) = true -> exists r, raw_eq same fsame a b = Some r.
  Proof.
    induction a as [x k s IH] using qry_ind2. intros [x' k' s'] H H' T. apply every_iff in H, H'. destruct H as [Hk Hl], H' as [Hk' Hl'].
    rewrite raw_eq_unfold. cbn [kd] in T. rewrite T. cbn [negb]. destruct (match k with KConst _ => _ | _ => false end); [eexists; reflexivity|].
    apply Z.eqb_eq in T. destruct (own_def _ _ _ _ _ _ Hk Hk' T) as [r ->]. destruct r; [|eexists; reflexivity]. cbn [oand].
    destruct (negb _); [eexists; reflexivity|].
    assert (G : exists r, subs_eq (sub_eq same (use_of k) (raw_eq same fsame)) s s' = Some r \/ use_of k = URaw).
    { destruct (use_of k) eqn:U; [| |exists true; right; reflexivity].
      all: clear - IH Hl Hl'; revert s' Hl'; induction s as [|[o c] s IHs]; intros [|[o' c'] s'] Hl'; try (eexists; left; reflexivity);
        inversion IH as [|? ? I1 I2]; subst; inversion Hl as [|? ? L1 L2]; subst; inversion Hl' as [|? ? L1' L2']; subst;
        destruct (IHs I2 L2 s' L2') as [r [Hr|Hr]]; [|discriminate Hr]; cbn [subs_eq]; rewrite Hr; cbn [snd] in *;
        assert (Q : exists q, q_eq_of same (raw_eq same fsame) c c' = Some q)
          by (unfold q_eq_of; destruct (same c c'); [eexists; reflexivity|]; destruct (ty (kd c) =? ty (kd c')) eqn:T; cbn [andb]; [|eexists; reflexivity];
              destruct (feq _ _); [|eexists; reflexivity]; apply I1; assumption); destruct Q as [q Q].
      - unfold sub_eq. cbn [fst snd]. rewrite Q. destruct (o =? o'); destruct q; cbn; eexists; left; reflexivity.
      - unfold sub_eq. cbn [fst snd]. rewrite Q. destruct q; cbn; eexists; left; reflexivity. }
    destruct G as [r [->|U]]; [destruct r; eexists; reflexivity|].
    assert (E : s = []) by (destruct k; try discriminate U; cbn [simple] in Hk; try contradiction; apply length_zero_iff_nil; exact Hk). rewrite E.
    destruct s'; eexists; reflexivity.
  Qed.
  Lemma eq_def a b : every simple a -> every simple b -> exists r, q_eq same fsame a b = Some r.
  Proof.
    intros H H'. unfold q_eq, q_eq_of. destruct (same a b); [eexists; reflexivity|]. destruct (ty (kd a) =? ty (kd b)) eqn:T; cbn [andb]; [|eexists; reflexivity].
    destruct (feq _ _); [|eexists; reflexivity]. apply raw_def; assumption.
  Qed.
End P.
