(* Proofs about the postings of one term. *)
From Verif Require Import Util Codec_Model Codec_Spec Codec_Proofs Seg_Model Seg_Spec SegCodec_Proofs Strcmp Dict_Model Dict_Spec DictCodec_Proofs Dict_Proofs Post_Model Post_Spec.
Open Scope Z_scope.

Ltac splits := repeat match goal with |- _ /\ _ => split end.
(* ---------- encodings *)
Lemma enc_v_short n : forall fuel z b, 0 <= z < 128 ^ Z.of_nat (S n) -> enc_v fuel z = Some b -> (length b <= S n)%nat.
Proof.
  induction n as [|n IH]; intros fuel z b Hz E; (destruct fuel as [|fuel]; [discriminate|]); cbn [enc_v] in E.
  - destruct (Z.gtb_spec z 127) as [H|H].
    + change (128 ^ Z.of_nat 1) with 128 in Hz. lia.
    + apply some_inj in E. subst b. cbn. lia.
  - destruct (Z.gtb_spec z 127) as [H|H].
    + apply obind_some in E. destruct E as (r & Er & E). apply some_inj in E. subst b. rewrite shiftr7 in Er. cbn [length].
      apply IH in Er; [lia|]. split; [apply Z.div_pos; lia|]. apply Z.div_lt_upper_bound; [lia|].
      replace (Z.of_nat (S (S n))) with (Z.of_nat (S n) + 1) in Hz by lia. rewrite Z.pow_add_r in Hz by lia. lia.
    + apply some_inj in E. subst b. cbn. lia.
Qed.
Lemma eint_len z : (1 <= length (eint z) <= 5)%nat.
Proof.
  pose proof (eint_some z) as E. split; [apply enc_int_nonempty in E; lia|].
  unfold enc_int in E. apply (enc_v_short 4) in E; [exact E|]. pose proof (Z.mod_pos_bound z (2 ^ 32)). change (128 ^ Z.of_nat 5) with (2 ^ 35). lia.
Qed.
Lemma dec_eint z rest : i32 z -> dec_int (eint z ++ rest) = POk z rest.
Proof. intros H. exact (proj1 (good_int z _ H (eint_some z)) rest). Qed.
Lemma dec_euint z rest : u32 z -> dec_uint (eint z ++ rest) = POk z rest.
Proof. intros H. exact (proj1 (good_uint z _ H (eint_some z)) rest). Qed.

Definition edoc (last : Z) (p : post) : list Z :=
  if freq p =? 1 then eint (2 * (fst p - last) + 1) else eint (2 * (fst p - last)) ++ eint (freq p).
Fixpoint epos (last : Z) (ps : list Z) : list Z := match ps with [] => [] | x :: t => eint (x - last) ++ epos x t end.
Fixpoint fby (d : Z) (l : list post) : list Z := match l with [] => [] | p :: t => edoc d p ++ fby (fst p) t end.
Fixpoint pby (l : list post) : list Z := match l with [] => [] | p :: t => epos 0 (snd p) ++ pby t end.

Lemma enc_pos_eq ps : forall d, enc_pos d ps = Some (epos d ps).
Proof. induction ps as [|x t IH]; intros d; [reflexivity|]. cbn [enc_pos epos]. rewrite eint_some. cbn [obind]. rewrite IH. reflexivity. Qed.
Lemma enc_doc_eq d p : enc_doc d p = Some (edoc d p).
Proof. unfold enc_doc, edoc. destruct (freq p =? 1); [apply eint_some|]. rewrite eint_some. cbn [obind]. rewrite eint_some. reflexivity. Qed.
Lemma edoc_len d p : (1 <= length (edoc d p) <= 10)%nat.
Proof. unfold edoc. destruct (freq p =? 1); [pose proof (eint_len (2 * (fst p - d) + 1)); lia|]. rewrite app_length. pose proof (eint_len (2 * (fst p - d))). pose proof (eint_len (freq p)). lia. Qed.
Lemma epos_len ps : forall d, (length (epos d ps) <= 5 * length ps)%nat.
Proof. induction ps as [|x t IH]; intros d; [cbn; lia|]. cbn [epos length]. rewrite app_length. pose proof (eint_len (x - d)). specialize (IH x). lia. Qed.
Lemma pby_len l : (length (pby l) <= 5 * length (concat (map snd l)))%nat.
Proof. induction l as [|p t IH]; [cbn; lia|]. cbn [pby map concat]. rewrite !app_length. pose proof (epos_len (snd p) 0). lia. Qed.
Lemma fby_len l : forall d, (length l <= length (fby d l) <= 10 * length l)%nat.
Proof. induction l as [|p t IH]; intros d; [cbn; lia|]. cbn [fby length]. rewrite app_length. pose proof (edoc_len d p). specialize (IH (fst p)). lia. Qed.
Lemma pby_app a b : pby (a ++ b) = pby a ++ pby b.
Proof. induction a as [|p t IH]; [reflexivity|]. cbn [pby app]. rewrite IH, app_assoc. reflexivity. Qed.

Lemma read_edoc d p rest : post_ok p -> 0 <= d -> d <= fst p -> read_doc (edoc d p ++ rest) = POk (fst p - d, freq p) rest.
Proof.
  intros (Hd & Hp & Hf) H0 Hle. unfold read_doc, edoc, pbind.
  assert (Hc : forall b, 0 <= b < 2 -> Z.shiftr (2 * (fst p - d) + b) 1 = fst p - d /\ Z.land (2 * (fst p - d) + b) 1 = b).
  { intros b Hb. split.
    - rewrite Z.shiftr_div_pow2 by lia. change (2 ^ 1) with 2. rewrite Z.mul_comm, Z.div_add_l by lia. rewrite Z.div_small by lia. lia.
    - change 1 with (Z.ones 1). rewrite Z.land_ones by lia. change (2 ^ 1) with 2. rewrite Z.add_comm, Z.mul_comm, Z.mod_add by lia. apply Z.mod_small. lia. }
  destruct (Z.eqb_spec (freq p) 1) as [E|E].
  - rewrite dec_eint by (unfold i32; lia). destruct (Hc 1) as [-> ->]; [lia|]. cbn. rewrite E. reflexivity.
  - rewrite <- app_assoc. rewrite dec_eint by (unfold i32; lia). destruct (Hc 0) as [E1 E2]; [lia|]. rewrite Z.add_0_r in E1, E2. rewrite E1, E2. cbn [Z.eqb].
    rewrite dec_eint by (unfold i32, freq in *; lia). reflexivity.
Qed.
Lemma skip_epos ps : forall d rest, skipv (Z.of_nat (length ps)) (epos d ps ++ rest) = Some rest.
Proof.
  intros d rest. unfold skipv. rewrite Nat2Z.id.
  assert (G : forall ps d, exists vs, length vs = length ps /\ write_all enc_vint vs = Some (epos d ps) /\ Forall (fun v => 0 <= v) vs).
  { clear. induction ps as [|x t IH]; intros d; [exists []; auto|]. destruct (IH x) as (vs & L & W & H).
    exists ((x - d) mod 2 ^ 32 :: vs). cbn [length write_all epos]. split; [lia|]. split.
    - pose proof (eint_some (x - d)) as E. unfold enc_int in E. rewrite E. cbn [obind]. rewrite W. reflexivity.
    - constructor; auto. apply Z.mod_pos_bound. lia. }
  destruct (G ps d) as (vs & L & W & H). rewrite <- L. rewrite (skip_vints_enc vs (epos d ps) rest W H). reflexivity.
Qed.

(* ---------- one list of postings *)
Lemma skipn_S_tl {A} (l : list A) : forall c, skipn (S c) l = tl (skipn c l).
Proof. induction l as [|x l IH]; intros [|c]; try reflexivity. cbn [skipn] in *. rewrite <- IH. reflexivity. Qed.
Section ONE.
  Variable kn : nat.
  Hypothesis Hkn : (1 <= kn)%nat.
  Notation k := (Z.of_nat kn).
  Variable P : list post.
  Definition D (c : nat) : Z := nth c (0 :: map fst P) 0.
  Definition F (c : nat) : nat := length (fby 0 (firstn c P)).
  Definition X (c : nat) : nat := length (pby (firstn c P)).
  (* the c of the j-th skip point *)
  Definition pt (j : nat) : nat := (j * kn - 1)%nat.
  Definition sdl (j : nat) : list Z :=
    eint (D (pt (S j)) - D (pt j)) ++ eint (Z.of_nat (F (pt (S j))) - Z.of_nat (F (pt j))) ++ eint (Z.of_nat (X (pt (S j))) - Z.of_nat (X (pt j))).
  Definition sby (j n : nat) : list Z := concat (map sdl (seq j n)).

  Lemma cut c p t : skipn c P = p :: t -> (c < length P)%nat /\ skipn (S c) P = t /\ D (S c) = fst p /\ nth_error P c = Some p /\ firstn (S c) P = firstn c P ++ [p].
  Proof.
    intros E. assert (Hl : (c < length P)%nat).
    { destruct (Nat.lt_ge_cases c (length P)); auto. rewrite skipn_all2 in E by lia. discriminate. }
    assert (N : nth_error P c = Some p).
    { rewrite <- (firstn_skipn c P), E. rewrite nth_error_app2; rewrite firstn_length; [|lia]. replace (c - Nat.min c (length P))%nat with 0%nat by lia. reflexivity. }
    repeat split; auto.
    - rewrite skipn_S_tl, E. reflexivity.
    - unfold D. cbn [nth]. apply (map_nth_error fst) in N. apply nth_error_nth. exact N.
    - clear E Hl. revert c N. induction P as [|q l IH]; intros [|c] N; cbn in N |- *; try discriminate.
      + apply some_inj in N. subst. reflexivity.
      + f_equal. apply IH. exact N.
  Qed.
  Lemma cut_ex c : (c < length P)%nat -> exists p, skipn c P = p :: skipn (S c) P.
  Proof.
    intros H. destruct (skipn c P) as [|p t] eqn:E.
    - apply (f_equal (@length _)) in E. rewrite skipn_length in E. cbn in E. lia.
    - exists p. destruct (cut c p t E) as (_ & -> & _). reflexivity.
  Qed.
  Lemma fby_snoc l : forall d p, fby d (l ++ [p]) = fby d l ++ edoc (last (d :: map fst l) 0) p.
  Proof.
    induction l as [|q l IH]; intros d p; [cbn; rewrite app_nil_r; reflexivity|].
    cbn [fby app]. rewrite IH, app_assoc. f_equal.
  Qed.
  Lemma last_D : forall c, (c <= length P)%nat -> last (0 :: map fst (firstn c P)) 0 = D c.
  Proof.
    intros c H. unfold D. transitivity (nth c (0 :: map fst (firstn c P)) 0).
    - assert (G : forall (l : list Z) n d, length l = n -> last (d :: l) 0 = nth n (d :: l) 0).
      { induction l as [|x l IH]; intros [|n] d L; cbn in L; try discriminate; auto. change (last (x :: l) 0 = nth n (x :: l) 0). apply IH. lia. }
      apply G. rewrite map_length, firstn_length. lia.
    - destruct c as [|c]; [reflexivity|]. change (nth c (map fst (firstn (S c) P)) 0 = nth c (map fst P) 0).
      transitivity (nth c (map fst (firstn (S c) P ++ skipn (S c) P)) 0); [|rewrite firstn_skipn; reflexivity].
      rewrite map_app, app_nth1; [reflexivity|]. rewrite map_length, firstn_length. lia.
  Qed.
  Lemma fby_cut c : (c <= length P)%nat -> fby 0 P = fby 0 (firstn c P) ++ fby (D c) (skipn c P).
  Proof.
    induction c as [|c IH]; intros H; [reflexivity|].
    rewrite IH by lia. destruct (cut_ex c) as (p & E); [lia|]. destruct (cut _ _ _ E) as (_ & _ & E3 & _ & E5).
    rewrite E5, fby_snoc, last_D by lia. rewrite E at 1. cbn [fby]. rewrite <- app_assoc, E3. reflexivity.
  Qed.
  Lemma pby_cut c : pby P = pby (firstn c P) ++ pby (skipn c P).
  Proof. rewrite <- pby_app, firstn_skipn. reflexivity. Qed.
  Lemma F_step c : (c < length P)%nat -> (F c < F (S c) <= F c + 10)%nat.
  Proof.
    intros H. destruct (cut_ex c H) as (p & E). destruct (cut _ _ _ E) as (_ & _ & _ & _ & E5).
    unfold F. rewrite E5, fby_snoc, app_length. pose proof (edoc_len (last (0 :: map fst (firstn c P)) 0) p). lia.
  Qed.
  Lemma F_mono a b : (a <= b <= length P)%nat -> (F a + (b - a) <= F b)%nat.
  Proof. intros [H1 H2]. induction H1 as [|b H IH]; [lia|]. pose proof (F_step b ltac:(lia)). specialize (IH ltac:(lia)). lia. Qed.
  Lemma X_mono a b : (a <= b)%nat -> (X a <= X b)%nat.
  Proof.
    intros H. unfold X. replace (firstn a P) with (firstn a (firstn b P)) by (rewrite firstn_firstn; f_equal; lia).
    rewrite <- (firstn_skipn a (firstn b P)) at 2. rewrite pby_app, app_length. lia.
  Qed.
  Lemma F_all : F (length P) = length (fby 0 P).
  Proof. unfold F. rewrite firstn_all. reflexivity. Qed.
  Lemma X_all : X (length P) = length (pby P).
  Proof. unfold X. rewrite firstn_all. reflexivity. Qed.

  (* the writer *)
  Lemma adds_snoc w l p : pw_adds k w (l ++ [p]) = (do w' <- pw_adds k w l; pw_add k w' p).
  Proof.
    revert w; induction l as [|q l IH]; intros w; cbn [app pw_adds].
    - cbn [obind]. destruct (pw_add k w p); reflexivity.
    - destruct (pw_add k w q) as [w'|]; cbn [obind]; [apply IH|reflexivity].
  Qed.
  Lemma sby_snoc j n : sby j (S n) = sby j n ++ sdl (j + n).
  Proof. unfold sby. rewrite seq_S, map_app, concat_app. cbn [map concat]. rewrite app_nil_r. reflexivity. Qed.
  Lemma mod_next c : (Z.of_nat c + 1) mod k = 0 -> (S c / kn = S (c / kn) /\ pt (S c / kn) = c)%nat.
  Proof.
    intros H. replace (Z.of_nat c + 1) with (Z.of_nat (S c)) in H by lia. rewrite <- Nat2Z.inj_mod in H.
    assert (H' : (S c mod kn = 0)%nat) by lia. apply Nat.mod_divides in H'; [|lia]. destruct H' as (q & Hq).
    assert (E : (S c / kn = q)%nat) by (rewrite Hq, Nat.mul_comm, Nat.div_mul; lia).
    assert (E2 : (c / kn = q - 1)%nat).
    { symmetry. apply (Nat.div_unique c kn (q - 1) (kn - 1)); [lia|]. destruct q as [|q]; [lia|]. replace (S q - 1)%nat with q by lia. nia. }
    rewrite E. split; [destruct q; lia|]. unfold pt. lia.
  Qed.
  Lemma mod_same c : (Z.of_nat c + 1) mod k <> 0 -> (S c / kn = c / kn)%nat.
  Proof.
    intros H. replace (Z.of_nat c + 1) with (Z.of_nat (S c)) in H by lia. rewrite <- Nat2Z.inj_mod in H.
    assert (H' : (S c mod kn <> 0)%nat) by lia.
    pose proof (Nat.div_mod (S c) kn ltac:(lia)) as E. apply (Nat.div_unique c kn (S c / kn) (S c mod kn - 1)); [pose proof (Nat.mod_upper_bound (S c) kn); lia|]. lia.
  Qed.
  Lemma adds_ok frq prx c : (c <= length P)%nat ->
    pw_adds k (mkPw frq prx 0 0 [] 0 (os_pos frq) (os_pos prx)) (firstn c P)
    = Some (mkPw (frq ++ fby 0 (firstn c P)) (prx ++ pby (firstn c P)) (Z.of_nat c) (D c) (sby 0 (c / kn)) (D (pt (c / kn)))
              (os_pos frq + Z.of_nat (F (pt (c / kn)))) (os_pos prx + Z.of_nat (X (pt (c / kn))))).
  Proof.
    induction c as [|c IH]; intros H.
    - replace (0 / kn)%nat with 0%nat by (symmetry; apply Nat.div_0_l; lia). cbn. rewrite !app_nil_r. change (pt 0) with 0%nat. cbn. rewrite !Z.add_0_r. reflexivity.
    - destruct (cut_ex c) as (p & E); [lia|]. destruct (cut _ _ _ E) as (_ & _ & E3 & _ & E5).
      rewrite E5, adds_snoc, IH by lia. cbn [obind]. unfold pw_add. cbn [w_df w_last].
      assert (Hpf : forall y, os_pos (frq ++ y) = os_pos frq + Z.of_nat (length y)) by (intros; unfold os_pos; rewrite app_length; lia).
      assert (Hpp : forall y, os_pos (prx ++ y) = os_pos prx + Z.of_nat (length y)) by (intros; unfold os_pos; rewrite app_length; lia).
      destruct (Z.eqb_spec ((Z.of_nat c + 1) mod k) 0) as [E1|E1].
      + destruct (mod_next c E1) as [Q1 Q2].
        unfold skip_buf_add. cbn [w_sdoc w_frq w_sfrq w_prx w_sprx w_df w_last w_buf]. rewrite !eint_some. cbn [obind w_last w_frq w_prx w_buf w_sdoc w_sfrq w_sprx].
        rewrite enc_doc_eq. cbn [obind]. rewrite enc_pos_eq. cbn [obind].
        f_equal. rewrite fby_snoc, last_D, pby_app by lia. cbn [pby]. rewrite app_nil_r, !app_assoc. rewrite Hpf, Hpp. fold (F c) (X c).
        replace (pt (S c / kn)) with c by lia. rewrite Q1, sby_snoc. cbn [Nat.add].
        replace (sdl (c / kn)) with (eint (D c - D (pt (c / kn))) ++ eint (Z.of_nat (F c) - Z.of_nat (F (pt (c / kn)))) ++ eint (Z.of_nat (X c) - Z.of_nat (X (pt (c / kn)))))
          by (unfold sdl; replace (pt (S (c / kn))) with c by (rewrite <- Q1; lia); reflexivity).
        f_equal; try lia. rewrite <- !app_assoc. f_equal. f_equal. f_equal; [f_equal; lia|f_equal; lia].
      + rewrite (mod_same c E1). cbn [obind w_last w_frq w_prx w_buf w_sdoc w_sfrq w_sprx].
        rewrite enc_doc_eq. cbn [obind]. rewrite enc_pos_eq. cbn [obind].
        f_equal. rewrite fby_snoc, last_D, pby_app by lia. cbn [pby]. rewrite app_nil_r, !app_assoc. f_equal; lia.
  Qed.
  Lemma write_term_ok frq prx :
    write_term k frq prx P = Some (frq ++ fby 0 P ++ sby 0 (length P / kn), prx ++ pby P, mkTi (Z.of_nat (length P)) (os_pos frq) (os_pos prx) (Z.of_nat (length (fby 0 P)))).
  Proof.
    unfold write_term. pose proof (adds_ok frq prx (length P) (Nat.le_refl _)) as E. rewrite firstn_all in E. rewrite E. cbn [obind w_frq w_buf w_prx w_df].
    rewrite <- app_assoc. f_equal. f_equal. f_equal. unfold os_pos. rewrite app_length. lia.
  Qed.

  (* ---------- the reader *)
  Hypothesis HP : plist_ok P.
  Lemma D_step c : (c < length P)%nat -> 0 <= D c <= D (S c) /\ ((1 <= c)%nat -> D c < D (S c)).
  Proof.
    destruct HP as (H1 & H2 & _). intros H. destruct (cut_ex c H) as (p & E). destruct (cut _ _ _ E) as (_ & _ & E3 & E4 & _).
    rewrite E3. assert (Hp : post_ok p) by (rewrite Forall_forall in H1; apply H1; eapply nth_error_In; eauto). destruct Hp as (Hp & _).
    destruct c as [|c]; [unfold D; cbn [nth]; split; [lia|intros; lia]|].
    destruct (cut_ex c) as (q & E'); [lia|]. destruct (cut _ _ _ E') as (_ & _ & E3' & E4' & _).
    assert (Hq : post_ok q) by (rewrite Forall_forall in H1; apply H1; eapply nth_error_In; eauto). destruct Hq as (Hq & _).
    rewrite E3'. assert (fst q < fst p).
    { pose proof (sorted_nth _ _ q H2 c (S c) ltac:(lia) H) as R. rewrite (nth_error_nth _ _ _ E4), (nth_error_nth _ _ _ E4') in R. exact R. }
    lia.
  Qed.
  Lemma D_mono a b : (a <= b <= length P)%nat -> 0 <= D a <= D b /\ ((1 <= a)%nat -> D a + Z.of_nat (b - a) <= D b).
  Proof.
    intros [H1 H2]. induction H1 as [|b H IH].
    - split; [|lia]. split; [|lia]. destruct a; [unfold D; cbn; lia|]. pose proof (D_step a ltac:(lia)). lia.
    - specialize (IH ltac:(lia)). pose proof (D_step b ltac:(lia)). destruct H0 as [? H3]. destruct IH as [? IH]. split; [lia|]. intros Ha. specialize (IH Ha). specialize (H3 ltac:(lia)). lia.
  Qed.
  Lemma D_pos c : (c <= length P)%nat -> Z.of_nat c - 1 <= D c.
  Proof. intros H. destruct c; [unfold D; cbn; lia|]. pose proof (D_mono 1 (S c) ltac:(lia)) as [A B]. specialize (B ltac:(lia)). pose proof (D_mono 1 1 ltac:(lia)). lia. Qed.
  Lemma D_bound c : (c <= length P)%nat -> 0 <= D c < 2 ^ 30.
  Proof.
    intros H. destruct c; [unfold D; cbn; lia|]. destruct (cut_ex c) as (q & E'); [lia|]. destruct (cut _ _ _ E') as (_ & _ & E3' & E4' & _).
    destruct HP as (H1 & _). assert (Hq : post_ok q) by (rewrite Forall_forall in H1; apply H1; eapply nth_error_In; eauto). destruct Hq as (Hq & _). lia.
  Qed.
  Lemma in_post c p t : skipn c P = p :: t -> post_ok p /\ 0 <= D c <= fst p.
  Proof.
    intros E. destruct (cut _ _ _ E) as (Hc & _ & E3 & E4 & _). destruct HP as (H1 & _). split; [rewrite Forall_forall in H1; apply H1; eapply nth_error_In; eauto|].
    rewrite <- E3. apply (D_step c Hc).
  Qed.
  Lemma sizes : Z.of_nat (F (length P)) + Z.of_nat (X (length P)) < 2 ^ 32.
  Proof. destruct HP as (_ & _ & H). rewrite F_all, X_all. pose proof (fby_len P 0). pose proof (pby_len P). lia. Qed.
  Lemma pt_le j : (j <= length P / kn)%nat -> (pt j <= length P)%nat.
  Proof. intros H. unfold pt. pose proof (Nat.mul_div_le (length P) kn). nia. Qed.
  Lemma pt_mono i j : (i <= j)%nat -> (pt i <= pt j)%nat.
  Proof. intros H. unfold pt. nia. Qed.
  Lemma read_sdl j rest : (j < length P / kn)%nat ->
    read_skip (sdl j ++ rest) = POk (D (pt (S j)) - D (pt j), Z.of_nat (F (pt (S j))) - Z.of_nat (F (pt j)), Z.of_nat (X (pt (S j))) - Z.of_nat (X (pt j))) rest.
  Proof.
    intros H. pose proof (pt_le (S j) H) as A. pose proof (pt_mono j (S j) ltac:(lia)) as B.
    pose proof (D_bound (pt j) ltac:(lia)). pose proof (D_bound (pt (S j)) A).
    pose proof (F_mono _ _ (conj B A)). pose proof (F_mono (pt (S j)) (length P) ltac:(lia)).
    pose proof (X_mono _ _ B). pose proof (X_mono _ _ A). pose proof sizes.
    unfold sdl, read_skip, pbind. rewrite <- !app_assoc. rewrite dec_eint by (unfold i32; lia). rewrite dec_euint by (unfold u32; lia). rewrite dec_euint by (unfold u32; lia). reflexivity.
  Qed.
  Lemma sby_cons j n : sby j (S n) = sdl j ++ sby (S j) n.
  Proof. reflexivity. Qed.

  Variable pos : bool.
  Variables pre tl ppre ptl : list Z.
  Notation n := (length P / kn)%nat.
  Definition frqf : list Z := pre ++ fby 0 P ++ sby 0 n ++ tl.
  Definition prxf : list Z := ppre ++ pby P ++ ptl.
  Record live (e : tde) (c s : nat) (q : list Z) : Prop := {
    l_c : (c <= length P)%nat;
    l_df : p_df e = Z.of_nat (length P);
    l_count : p_count e = Z.of_nat c;
    l_doc : p_doc e = D c;
    l_frq : p_frq e = fby (D c) (skipn c P) ++ sby 0 n ++ tl;
    l_num : p_num e = Z.of_nat n;
    l_scount : p_scount e = Z.of_nat s;
    l_s : (s <= n)%nat;
    l_sdoc : p_sdoc e = D (pt s);
    l_fptr : p_fptr e = Z.of_nat (length pre) + Z.of_nat (F (pt s));
    l_pptr : p_pptr e = Z.of_nat (length ppre) + Z.of_nat (X (pt s));
    l_sptr : (kn <= length P)%nat -> p_sptr e = Z.of_nat (length pre) + Z.of_nat (length (fby 0 P));
    l_have : (p_have e = false /\ s = 0%nat) \/ (p_have e = true /\ p_skip e = Some (sby s (n - s) ++ tl));
    l_prx : pos = true -> p_prx e = q ++ ptl }.

  Lemma live_set e c s q q' x a b : live e c s q -> (pos = true -> x = q' ++ ptl) -> live (set_prx e x a b) c s q'.
  Proof. intros [] H. constructor; cbn [set_prx p_frq p_prx p_skip p_count p_df p_doc p_freq p_sdoc p_scount p_num p_fptr p_pptr p_sptr p_have p_pcnt p_posn]; auto. Qed.
  Lemma live_eta e c s q q' a b : live e c s q -> (pos = true -> q = q') -> live (set_prx e (p_prx e) a b) c s q'.
  Proof. intros H E. eapply live_set; eauto. intros Hp. rewrite (l_prx _ _ _ _ H Hp), E by auto. reflexivity. Qed.

  Lemma step_ok e c s q p t : live e c s q -> skipn c P = p :: t ->
    exists e1, step_doc e = Some e1 /\ live e1 (S c) s q /\ p_doc e1 = fst p /\ p_freq e1 = freq p /\ skipn (S c) P = t /\ p_pcnt e1 = p_pcnt e /\ p_posn e1 = p_posn e.
  Proof.
    intros L E. destruct (cut _ _ _ E) as (Hc & E2 & E3 & E4 & _). destruct (in_post _ _ _ E) as (Hok & Hd & Hd').
    unfold step_doc. rewrite (l_frq _ _ _ _ L), E. cbn [fby]. rewrite <- app_assoc, read_edoc by auto.
    eexists. split; [reflexivity|]. cbn [p_doc p_freq p_pcnt p_posn]. rewrite (l_doc _ _ _ _ L). split; [|splits; auto; lia].
    destruct L. constructor; cbn [p_frq p_prx p_skip p_count p_df p_doc p_freq p_sdoc p_scount p_num p_fptr p_pptr p_sptr p_have p_pcnt p_posn]; auto; try lia.
    rewrite E3, E2. reflexivity.
  Qed.

  Lemma next_loop_ok del : forall m e c s, (length P - c <= m)%nat -> live e c s (pby (skipn c P)) ->
    exists b e', stde_next_loop (S m) pos del e = Some (b, e') /\ p_pcnt e' = p_pcnt e /\ p_posn e' = p_posn e /\
      match first_ok (fun d => negb (del d)) (skipn c P) with
      | None => b = false /\ live e' (length P) s []
      | Some (p, t) => b = true /\ p_doc e' = fst p /\ p_freq e' = freq p /\
                       exists c', (c < c')%nat /\ skipn c' P = t /\ live e' c' s (epos 0 (snd p) ++ pby t)
      end.
  Proof.
    induction m as [|m IH]; intros e c s Hm L; pose proof (l_c _ _ _ _ L) as Hc; cbn [stde_next_loop]; rewrite (l_df _ _ _ _ L), (l_count _ _ _ _ L).
    - assert (c = length P) by lia. subst c. destruct (Z.leb_spec (Z.of_nat (length P)) (Z.of_nat (length P))); [|lia].
      exists false, e. rewrite skipn_all in L |- *. cbn [first_ok]. auto.
    - destruct (Z.leb_spec (Z.of_nat (length P)) (Z.of_nat c)) as [Hl|Hl].
      + assert (c = length P) by lia. subst c. exists false, e. rewrite skipn_all in L |- *. cbn [first_ok]. auto.
      + destruct (cut_ex c) as (p & E); [lia|]. destruct (step_ok _ _ _ _ _ _ L E) as (e1 & S1 & L1 & A1 & A2 & _ & A3 & A4).
        rewrite S1. cbn [obind]. rewrite E. cbn [first_ok]. rewrite A1. rewrite E in L1. cbn [pby] in L1. destruct (del (fst p)) eqn:Dl; cbn [negb].
        * assert (Hs : exists x, (if pos then skipv (p_freq e1) (p_prx e1) else Some (p_prx e1)) = Some x /\ (pos = true -> x = pby (skipn (S c) P) ++ ptl)).
          { destruct pos eqn:Hpos; [|eexists; split; [reflexivity|discriminate]].
            rewrite A2, (l_prx _ _ _ _ L1 Hpos). unfold freq. rewrite <- app_assoc, skip_epos. eauto. }
          destruct Hs as (x & -> & Hx). cbn [obind].
          destruct (IH (set_prx e1 x (p_pcnt e1) (p_posn e1)) (S c) s ltac:(lia)) as (b & e' & R & B1 & B2 & B3).
          { eapply live_set; eauto. }
          exists b, e'. split; [exact R|]. cbn in B1, B2. split; [congruence|]. split; [congruence|].
          destruct (first_ok _ (skipn (S c) P)) as [[p' t']|]; [|exact B3]. destruct B3 as (? & ? & ? & c' & ? & ? & ?). splits; auto. exists c'. split; [lia|auto].
        * exists true, e1. splits; auto; try congruence. exists (S c). split; [lia|]. split; auto.
  Qed.
  Lemma skip_rem e rem r : pos = true -> p_prx e = (epos (p_posn e) rem ++ r) ++ ptl -> (p_pcnt e = Z.of_nat (length rem) \/ p_pcnt e <= 0 /\ rem = []) -> skipv (p_pcnt e) (p_prx e) = Some (r ++ ptl).
  Proof.
    intros Hp -> [->|[Hc ->]].
    - rewrite <- app_assoc. apply skip_epos.
    - unfold skipv. replace (Z.to_nat (p_pcnt e)) with 0%nat by lia. reflexivity.
  Qed.
  (* what is behind the cursor: positions of the current document first *)
  Definition pend (e : tde) (rem : list Z) : Prop :=
    pos = true -> (p_pcnt e = Z.of_nat (length rem) \/ p_pcnt e <= 0 /\ rem = []) /\ Forall (fun x => 0 <= x < 2 ^ 31) rem /\ 0 <= p_posn e < 2 ^ 31.
  Lemma first_ok_in A l p t : first_ok A l = Some (p, t) -> In p l.
  Proof. induction l as [|q l IH]; [discriminate|]. cbn [first_ok]. destruct (A (fst q)); [intros E; apply some_inj in E; injection E as -> _; left; reflexivity|intros E; right; auto]. Qed.
  Lemma tde_next_ok del e c s rem : live e c s (epos (p_posn e) rem ++ pby (skipn c P)) -> pend e rem ->
    exists b e', tde_next pos del e = Some (b, e') /\
      match first_ok (fun d => negb (del d)) (skipn c P) with
      | None => b = false /\ live e' (length P) s (epos (p_posn e') []) /\ pend e' []
      | Some (p, t) => b = true /\ p_doc e' = fst p /\ p_freq e' = freq p /\ pend e' (snd p) /\
                       exists c', (c < c')%nat /\ skipn c' P = t /\ live e' c' s (epos (p_posn e') (snd p) ++ pby t)
      end.
  Proof.
    intros L Hr. unfold tde_next. pose proof (l_c _ _ _ _ L) as Hc.
    assert (Hf : forall e, live e c s (pby (skipn c P)) -> stde_next pos del e = stde_next_loop (S (length P - c)) pos del e).
    { intros e0 L0. unfold stde_next. rewrite (l_df _ _ _ _ L0), (l_count _ _ _ _ L0). f_equal. f_equal. lia. }
    destruct pos eqn:Hpos.
    - rewrite (skip_rem e rem (pby (skipn c P))); auto; [|exact (l_prx _ _ _ _ L Hpos)|exact (proj1 (Hr Hpos))]. cbn [obind].
      set (e0 := set_prx e _ _ _). assert (L0 : live e0 c s (pby (skipn c P))) by (eapply live_set; eauto).
      rewrite (Hf _ L0). pose proof (next_loop_ok del (length P - c) e0 c s (Nat.le_refl _) L0) as G. rewrite Hpos in G. destruct G as (b & e1 & -> & B1 & B2 & B3).
      cbn [obind fst snd]. eexists b, _. split; [reflexivity|].
      destruct (first_ok _ (skipn c P)) as [[p t]|] eqn:Ef.
      + destruct B3 as (-> & A1 & A2 & c' & C1 & C2 & C3). cbn [set_prx p_doc p_freq p_posn]. splits; auto.
        * intros _. cbn [set_prx p_pcnt p_posn]. splits; auto; try lia. apply first_ok_in in Ef. destruct HP as (H1 & _). rewrite Forall_forall in H1.
          apply (H1 p). rewrite <- (firstn_skipn c P). apply in_or_app. auto.
        * exists c'. split; auto. split; auto. eapply live_eta; eauto.
      + destruct B3 as (-> & C3). cbn [set_prx p_doc p_freq p_posn]. splits; auto.
        * eapply live_eta; eauto.
        * intros _. cbn [set_prx p_pcnt p_posn]. splits; auto; lia.
    - assert (L0 : live e c s (pby (skipn c P))) by (destruct L; constructor; auto; rewrite Hpos; discriminate).
      rewrite (Hf _ L0). pose proof (next_loop_ok del (length P - c) e c s (Nat.le_refl _) L0) as G. rewrite Hpos in G. destruct G as (b & e1 & -> & B1 & B2 & B3).
      exists b, e1. split; [reflexivity|]. assert (Hn : forall e1 c1 q q', live e1 c1 s q -> live e1 c1 s q') by (intros ? ? ? ? []; constructor; auto; rewrite Hpos; discriminate).
      assert (Hn2 : forall e1 r, pend e1 r) by (intros ? ? HH; congruence).
      destruct (first_ok _ (skipn c P)) as [[p t]|].
      + destruct B3 as (-> & A1 & A2 & c' & C1 & C2 & C3). splits; auto. exists c'. split; auto. split; auto. eapply Hn; eauto.
      + destruct B3 as (-> & C3). splits; eauto.
  Qed.

  (* read *)
  Lemma take_live_nil m del : take_live m del [] = ([], []).
  Proof. destruct m; reflexivity. Qed.
  Lemma take_live_del m del p t : del (fst p) = true -> take_live (S m) del (p :: t) = take_live (S m) del t.
  Proof. intros E. cbn [take_live first_ok]. rewrite E. reflexivity. Qed.
  Lemma take_live_ok m del p t : del (fst p) = false -> take_live (S m) del (p :: t) = (((fst p, freq p) :: fst (take_live m del t)), snd (take_live m del t)).
  Proof. intros E. cbn [take_live first_ok]. rewrite E. cbn [negb]. destruct (take_live m del t). reflexivity. Qed.
  Lemma read_ok del : forall m e c s q req, (length P - c < m)%nat -> live e c s q ->
    exists e' c', stde_read m del e req = Some (fst (take_live req del (skipn c P)), e') /\ skipn c' P = snd (take_live req del (skipn c P)) /\ (c <= c')%nat /\ live e' c' s q.
  Proof.
    induction m as [|m IH]; intros e c s q req Hm L; pose proof (l_c _ _ _ _ L) as Hc; [lia|]. cbn [stde_read]; rewrite (l_df _ _ _ _ L), (l_count _ _ _ _ L).
    - destruct (Z.ltb_spec (Z.of_nat c) (Z.of_nat (length P))) as [Hl|Hl].
      2:{ assert (c = length P) by lia. subst c. rewrite andb_false_r. rewrite skipn_all, take_live_nil. cbn [fst snd]. exists e, (length P). rewrite skipn_all. auto. }
      destruct req as [|req]; [cbn [Nat.ltb Nat.leb andb take_live fst snd]; exists e, c; auto|]. cbn [Nat.ltb Nat.leb andb].
      destruct (cut_ex c) as (p & E); [lia|]. destruct (step_ok _ _ _ _ _ _ L E) as (e1 & S1 & L1 & A1 & A2 & _).
      rewrite S1. cbn [obind]. rewrite A1, A2, E. destruct (del (fst p)) eqn:Dl.
      + rewrite take_live_del by exact Dl. destruct (IH e1 (S c) s q (S req) ltac:(lia) L1) as (e' & c' & R & ? & ? & ?). exists e', c'. splits; auto. lia.
      + rewrite take_live_ok by exact Dl. cbn [fst snd]. destruct (IH e1 (S c) s q req ltac:(lia) L1) as (e' & c' & R & ? & ? & ?).
        replace (S req - 1)%nat with req by lia. rewrite R. cbn [obind fst snd]. exists e', c'. splits; auto. lia.
  Qed.

  (* skip_to *)
  Lemma first_ok_and A B (l : list post) :
    first_ok (fun d => A d && B d) l = match first_ok A l with Some (p, t) => if B (fst p) then Some (p, t) else first_ok (fun d => A d && B d) t | None => None end.
  Proof. induction l as [|p l IH]; [reflexivity|]. cbn [first_ok]. destruct (A (fst p)); cbn [andb]; [reflexivity|exact IH]. Qed.
  Definition landed (del : Z -> bool) (target : Z) (c s : nat) (b : bool) (e' : tde) : Prop :=
    match first_ok (fun d => negb (del d) && (target <=? d)) (skipn c P) with
    | None => b = false /\ live e' (length P) s (epos (p_posn e') []) /\ pend e' []
    | Some (p, t) => b = true /\ p_doc e' = fst p /\ p_freq e' = freq p /\ pend e' (snd p) /\
                     exists c', (c < c')%nat /\ skipn c' P = t /\ live e' c' s (epos (p_posn e') (snd p) ++ pby t)
    end.
  Lemma next_until_ok del target : forall m e c s rem, (length P - c < m)%nat -> live e c s (epos (p_posn e) rem ++ pby (skipn c P)) -> pend e rem ->
    exists b e', next_until m pos del target e = Some (b, e') /\ landed del target c s b e'.
  Proof.
    induction m as [|m IH]; intros e c s rem Hm L Hr; pose proof (l_c _ _ _ _ L) as Hc; [lia|].
    destruct (tde_next_ok del e c s rem L Hr) as (b & e1 & R & H); unfold landed; rewrite first_ok_and; cbn [next_until]; rewrite R; cbn [obind fst snd].
    - destruct (first_ok (fun d => negb (del d)) (skipn c P)) as [[p t]|].
      + destruct H as (-> & A1 & A2 & A3 & c' & C1 & C2 & C3). rewrite A1, Z.leb_antisym. destruct (Z.ltb_spec (fst p) target) as [Hlt|Hge]; cbn [negb].
        * rewrite <- C2 in C3. pose proof (l_c _ _ _ _ C3) as Hc'. destruct (IH e1 c' s (snd p) ltac:(lia) C3 A3) as (b' & e' & R' & H'). exists b', e'. split; [exact R'|].
          unfold landed in H'. rewrite C2 in H'. destruct (first_ok _ t) as [[p' t']|]; [|exact H'].
          destruct H' as (? & ? & ? & ? & c'' & ? & ? & ?). splits; auto. exists c''. splits; auto. lia.
        * exists true, e1. splits; auto. exists c'. auto.
      + destruct H as (-> & H). exists false, e1. split; [reflexivity|]. auto.
  Qed.

  Definition counts (cd : Z) (j : nat) : bool := negb (D (pt j) =? 0) && (cd <=? D (pt j)).
  Lemma scan_ok cd target : forall m' s st, (n - s + 1 < m')%nat -> (s <= n)%nat -> k_in st = sby s (n - s) ++ tl -> k_doc st = D (pt s) ->
    k_fptr st = Z.of_nat (length pre) + Z.of_nat (F (pt s)) -> k_pptr st = Z.of_nat (length ppre) + Z.of_nat (X (pt s)) -> k_count st = Z.of_nat s -> D (pt s) < target ->
    exists m s1, (s <= m <= s1)%nat /\ (s1 <= n)%nat /\ (s1 <= m + 1)%nat /\ D (pt m) < target /\
      skip_scan m' k (Z.of_nat n) cd target st
      = Some (mkSk (sby s1 (n - s1) ++ tl) (D (pt s1)) (Z.of_nat (length pre) + Z.of_nat (F (pt s1))) (Z.of_nat (length ppre) + Z.of_nat (X (pt s1))) (Z.of_nat s1)
                (D (pt m)) (Z.of_nat (length pre) + Z.of_nat (F (pt m))) (Z.of_nat (length ppre) + Z.of_nat (X (pt m)))
                (k_n st + k * Z.of_nat (length (filter (counts cd) (seq s (m + 1 - s)))))).
  Proof.
    induction m' as [|m' IH]; intros s st Hm Hs E1 E2 E3 E4 E5 Hd; [lia|].
    - cbn [skip_scan]. rewrite E2. destruct (Z.ltb_spec (D (pt s)) target); [|lia]. rewrite E5. destruct (Z.leb_spec (Z.of_nat n) (Z.of_nat s)) as [Hl|Hl].
      + assert (Es : s = n) by lia. exists s, s. splits; auto; try lia. rewrite E1, E3, E4. f_equal. f_equal.
        replace (s + 1 - s)%nat with 1%nat by lia. cbn [seq filter]. unfold counts. destruct (negb _ && _); cbn [length]; lia.
      + rewrite E1. replace (n - s)%nat with (S (n - S s)) by lia. rewrite sby_cons, <- app_assoc, read_sdl by lia.
        destruct (Z.lt_ge_cases (D (pt (S s))) target) as [Hd'|Hd'].
        * match goal with |- context [skip_scan _ _ _ _ _ ?x] => destruct (IH (S s) x) as (m & s1 & B1 & B2 & B3 & B4 & B5) end;
            cbn [k_in k_doc k_fptr k_pptr k_count]; auto; try lia.
          exists m, s1. splits; auto; try lia. rewrite B5. f_equal. f_equal. cbn [k_n].
          replace (m + 1 - s)%nat with (S (m + 1 - S s)) by lia. cbn [seq filter]. unfold counts at 2. destruct (negb _ && _); cbn [length]; lia.
        * exists s, (S s). splits; auto; try lia. destruct m' as [|m']; [lia|]. cbn [skip_scan k_doc]. destruct (Z.ltb_spec (D (pt s) + (D (pt (S s)) - D (pt s))) target); [lia|].
          f_equal. rewrite E3, E4. f_equal; try lia. replace (s + 1 - s)%nat with 1%nat by lia. cbn [seq filter]. unfold counts. destruct (negb _ && _); cbn [length]; lia.
  Qed.
  (* how many skip points the loop counts *)
  Lemma counts_ok c j : (3 <= kn)%nat -> (c <= length P)%nat -> (j <= n)%nat -> counts (D c) j = (c / kn <? j)%nat.
  Proof.
    intros H3 Hc Hj. pose proof (pt_le j Hj) as Hp. unfold counts. destruct (Nat.ltb_spec (c / kn) j) as [H|H].
    - assert (Hcj : (c < j * kn)%nat) by (pose proof (Nat.mul_succ_div_gt c kn); nia).
      assert (Hj0 : (1 <= j)%nat) by (destruct j; [inversion H|lia]).
      assert (Hj1 : (3 <= j * kn)%nat) by (clear - Hj0 H3; nia).
      assert (Hpj : (c <= pt j /\ 2 <= pt j)%nat) by (unfold pt; clear - Hj1 Hcj; lia).
      pose proof (D_pos (pt j) Hp). pose proof (D_mono c (pt j) ltac:(lia)). destruct (Z.eqb_spec (D (pt j)) 0); [lia|]. cbn [negb andb]. apply Z.leb_le. lia.
    - destruct j as [|j]; [reflexivity|]. assert (Hcj : (S j * kn <= c)%nat) by (pose proof (Nat.mul_div_le c kn); nia).
      assert (Hpj : (1 <= pt (S j) < c)%nat) by (unfold pt; nia). pose proof (D_mono (pt (S j)) c ltac:(lia)) as [_ HM]. specialize (HM ltac:(lia)).
      destruct (Z.leb_spec (D c) (D (pt (S j)))); [lia|]. apply andb_false_r.
  Qed.
  Lemma filter_len f a : forall l s, (forall j, In j (seq s l) -> f j = (a <? j)%nat) -> (s <= a + 1)%nat -> (a + 1 <= s + l)%nat -> length (filter f (seq s l)) = (s + l - 1 - a)%nat.
  Proof.
    induction l as [|l IH]; intros s Hf H1 H2; [cbn; lia|]. cbn [seq filter]. rewrite (Hf s (or_introl eq_refl)). destruct (Nat.ltb_spec a s) as [H|H].
    - assert (s = a + 1)%nat by lia. cbn [length].
      assert (G : forall l s, (forall j, In j (seq s l) -> f j = (a <? j)%nat) -> (a < s)%nat -> length (filter f (seq s l)) = l).
      { clear. induction l as [|l IH]; intros s Hf H; [reflexivity|]. cbn [seq filter]. rewrite (Hf s (or_introl eq_refl)). destruct (Nat.ltb_spec a s); [|lia]. cbn [length]. rewrite IH; [reflexivity| |lia]. intros j Hj. apply Hf. right. exact Hj. }
      rewrite G; [lia| |lia]. intros j Hj. apply Hf. right. exact Hj.
    - rewrite IH; [lia| |lia|lia]. intros j Hj. apply Hf. right. exact Hj.
  Qed.
  Lemma first_ok_skip A target : forall d c, (c + d <= length P)%nat -> D (c + d) < target ->
    first_ok (fun x => A x && (target <=? x)) (skipn c P) = first_ok (fun x => A x && (target <=? x)) (skipn (c + d) P).
  Proof.
    induction d as [|d IH]; intros c Hc Hd; [rewrite Nat.add_0_r; reflexivity|].
    destruct (cut_ex c) as (p & E); [lia|]. destruct (cut _ _ _ E) as (_ & _ & E3 & _). rewrite E. cbn [first_ok].
    pose proof (D_mono (S c) (c + S d) ltac:(lia)) as [HM _]. rewrite E3 in HM. destruct (Z.leb_spec target (fst p)); [lia|]. rewrite andb_false_r.
    replace (c + S d)%nat with (S c + d)%nat in * by lia. apply IH; lia.
  Qed.

  Lemma skip_ok del target e c s rem : (3 <= kn)%nat -> live e c s (epos (p_posn e) rem ++ pby (skipn c P)) -> pend e rem -> (s <= c / kn + 1)%nat ->
    exists b e', tde_skip_to pos frqf prxf k del e target = Some (b, e') /\
      match first_ok (fun d => negb (del d) && (target <=? d)) (skipn c P) with
      | None => b = false /\ exists s', (s' <= n)%nat /\ live e' (length P) s' (epos (p_posn e') []) /\ pend e' []
      | Some (p, t) => b = true /\ p_doc e' = fst p /\ p_freq e' = freq p /\ pend e' (snd p) /\
                       exists c' s', (c < c')%nat /\ (s' <= c' / kn + 1)%nat /\ skipn c' P = t /\ live e' c' s' (epos (p_posn e') (snd p) ++ pby t)
      end.
  Proof.
    intros H3 L Hr Hs. pose proof (l_c _ _ _ _ L) as Hc. unfold tde_skip_to.
    assert (Hdm : forall a b, (a <= b -> a / kn <= b / kn)%nat) by (intros; apply Nat.div_le_mono; lia).
    (* after the skip data: a state that may be further on *)
    assert (HZ : exists e1 c1 s1 rem1,
      skip_data pos frqf prxf k e target = Some e1 /\ (c <= c1)%nat /\ (s1 <= (c1 + 1) / kn + 1)%nat /\
        live e1 c1 s1 (epos (p_posn e1) rem1 ++ pby (skipn c1 P)) /\ pend e1 rem1 /\ (c1 = c \/ D c1 < target)).
    { unfold skip_data. rewrite (l_df _ _ _ _ L), (l_doc _ _ _ _ L).
      destruct (Z.leb_spec k (Z.of_nat (length P))) as [Hk|Hk]; cbn [andb].
      2:{ exists e, c, s, rem. splits; auto. specialize (Hdm c (c + 1)%nat ltac:(lia)). lia. }
      destruct (Z.ltb_spec (D c) target) as [Ht|Ht].
      2:{ exists e, c, s, rem. splits; auto. specialize (Hdm c (c + 1)%nat ltac:(lia)). lia. }
      cbv zeta. rewrite (l_num _ _ _ _ L), (l_scount _ _ _ _ L), (l_sdoc _ _ _ _ L), (l_fptr _ _ _ _ L), (l_pptr _ _ _ _ L), (l_count _ _ _ _ L).
      assert (Hsk : (if p_have e then match p_skip e with Some x => x | None => frqf end else seek frqf (p_sptr e)) = sby s (n - s) ++ tl).
      { destruct (l_have _ _ _ _ L) as [[-> ->]|[-> ->]]; [|reflexivity]. rewrite (l_sptr _ _ _ _ L) by lia. unfold frqf. rewrite app_assoc.
        rewrite seek_app by (rewrite app_length; lia). rewrite Nat.sub_0_r. reflexivity. }
      rewrite Hsk. clear Hsk.
      assert (Hh : is_pos frqf (p_frq e) = Z.of_nat (length pre) + Z.of_nat (F c)).
      { unfold is_pos. rewrite (l_frq _ _ _ _ L). unfold frqf. rewrite (fby_cut c Hc). rewrite !app_length. unfold F. lia. }
      rewrite Hh.
      assert (Hrem : Z.rem (Z.of_nat c) k = Z.of_nat (c mod kn)) by (rewrite Z.rem_mod_nonneg by lia; rewrite <- Nat2Z.inj_mod; reflexivity).
      rewrite Hrem. pose proof (l_s _ _ _ _ L) as Hsn.
      replace (S (Z.to_nat (Z.of_nat n - Z.of_nat s)) + 1)%nat with (S (S (n - s))) by lia.
      destruct (Z.lt_ge_cases (D (pt s)) target) as [Hd|Hd].
      - match goal with |- context [skip_scan _ _ _ _ _ ?x] => destruct (scan_ok (D c) target (S (S (n - s))) s x) as (m & s1 & B1 & B2 & B3 & B4 & B5) end; cbn [k_in k_doc k_fptr k_pptr k_count]; auto; try lia.
        rewrite B5. cbn [obind k_in k_doc k_fptr k_pptr k_count k_ldoc k_lf k_lp k_n].
        assert (Hpm : (pt m <= length P)%nat) by (apply pt_le; lia).
        destruct (Z.ltb_spec (Z.of_nat (length pre) + Z.of_nat (F c)) (Z.of_nat (length pre) + Z.of_nat (F (pt m)))) as [Hlt|Hge].
        + assert (Hcm : (c < pt m)%nat). { destruct (Nat.lt_ge_cases c (pt m)); auto. pose proof (F_mono (pt m) c ltac:(lia)). lia. }
          assert (Hm1 : (c / kn < m)%nat). { apply Nat.div_lt_upper_bound; [lia|]. unfold pt in Hcm. nia. }
          eexists _, (pt m), s1, []. split; [reflexivity|]. split; [lia|]. split.
          { unfold pt. replace (m * kn - 1 + 1)%nat with (m * kn)%nat by nia. rewrite Nat.div_mul by lia. lia. }
          split; [|split; [intros Hpos; cbn [p_pcnt p_posn]; rewrite Hpos; splits; auto; apply (Hr Hpos)|right; exact B4]].
          assert (HF : length (filter (counts (D c)) (seq s (m + 1 - s))) = (m - c / kn)%nat).
          { rewrite (filter_len _ (c / kn)); [lia| |lia|lia]. intros j Hj. apply in_seq in Hj. apply counts_ok; lia. }
          rewrite HF. constructor; cbn [p_frq p_prx p_skip p_count p_df p_doc p_freq p_sdoc p_scount p_num p_fptr p_pptr p_sptr p_have p_pcnt p_posn epos app]; auto; try lia.
          * pose proof (Nat.div_mod c kn ltac:(lia)) as Edm. unfold pt. nia.
          * unfold frqf. rewrite (fby_cut (pt m) Hpm). rewrite <- !app_assoc. rewrite (app_assoc pre). apply seek_app. rewrite app_length. unfold F. lia.
          * apply (l_sptr _ _ _ _ L).
          * intros Hpos. rewrite Hpos. unfold prxf. rewrite (pby_cut (pt m)). rewrite <- !app_assoc. rewrite (app_assoc ppre). apply seek_app. rewrite app_length. unfold X. lia.
        + assert (Hcm : (pt m <= c)%nat). { destruct (Nat.le_gt_cases (pt m) c); auto. pose proof (F_mono c (pt m) ltac:(lia)). lia. }
          eexists _, c, s1, rem. split; [reflexivity|]. split; [lia|]. split.
          { assert (m <= (c + 1) / kn)%nat; [|lia]. apply Nat.div_le_lower_bound; [lia|]. unfold pt in Hcm. lia. }
          split; [|split; [exact Hr|auto]].
          destruct L. constructor; cbn [p_frq p_prx p_skip p_count p_df p_doc p_freq p_sdoc p_scount p_num p_fptr p_pptr p_sptr p_have p_pcnt p_posn]; auto.
      - cbn [skip_scan k_doc]. destruct (Z.ltb_spec (D (pt s)) target); [lia|]. cbn [obind k_in k_doc k_fptr k_pptr k_count k_ldoc k_lf k_lp k_n]. rewrite Z.ltb_irrefl.
        eexists _, c, s, rem. split; [reflexivity|]. split; [lia|]. split; [specialize (Hdm c (c + 1)%nat ltac:(lia)); lia|].
        split; [|split; [exact Hr|auto]].
        destruct L. constructor; cbn [p_frq p_prx p_skip p_count p_df p_doc p_freq p_sdoc p_scount p_num p_fptr p_pptr p_sptr p_have p_pcnt p_posn]; auto. }
    destruct HZ as (e1 & c1 & s1 & rem1 & -> & Hc1 & Hs1 & L1 & Hr1 & Hcase). cbn [obind].
    rewrite (l_df _ _ _ _ L1), (l_count _ _ _ _ L1). pose proof (l_c _ _ _ _ L1) as Hc1'.
    replace (Z.to_nat (Z.of_nat (length P) - Z.of_nat c1)) with (length P - c1)%nat by lia.
    destruct (next_until_ok del target (S (length P - c1)) e1 c1 s1 rem1 (Nat.lt_succ_diag_r _) L1 Hr1) as (b & e' & R & H). exists b, e'. split; [exact R|].
    assert (HE : first_ok (fun d => negb (del d) && (target <=? d)) (skipn c P) = first_ok (fun d => negb (del d) && (target <=? d)) (skipn c1 P)).
    { destruct Hcase as [->|Hd]; [reflexivity|]. replace c1 with (c + (c1 - c))%nat in Hd |- * by lia. apply first_ok_skip; [lia|exact Hd]. }
    rewrite HE. unfold landed in H. destruct (first_ok _ (skipn c1 P)) as [[p t]|].
    - destruct H as (? & ? & ? & ? & c' & C1 & C2 & C3). splits; auto. exists c', s1. splits; auto; [lia|]. specialize (Hdm (c1 + 1)%nat c' ltac:(lia)). lia.
    - destruct H as (-> & HL & HR). split; auto. exists s1. splits; auto. exact (l_s _ _ _ _ HL).
  Qed.
End ONE.
