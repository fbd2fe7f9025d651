(* The reader's loop against a committing writer. *)
From Coq Require Import String.
From Verif Require Import Util Codec_Model Codec_Spec Seg_Model Seg_Spec Seg_Proofs SegCodec_Proofs Commit_Model Commit_Spec Commit_Proofs Race_Model Race_Spec Race_Proofs.
Open Scope Z_scope.

Section Reader.
Variables (d0 : dir) (g0 : Z) (s0 : seg_infos) (H : list commit) (xs : nat -> moment).
Hypothesis Hstart : starts d0 g0 s0.
Hypothesis Hrules : follows_rules g0 s0 H.
Hypothesis Hord : in_order xs (length H).
Definition dsq (i : nat) : dir := dir_at d0 g0 H (xs i).
Definition lsq (i : nat) : list (list Z) := names (dsq i).
Definition tq (i : nat) : nat := stage H (xs i).

Lemma tq_mono i j : (i <= j)%nat -> (tq i <= tq j)%nat.
Proof. intros L. apply stage_mono. apply Hord. auto. Qed.
Lemma tq_sees i : sees d0 g0 s0 H (dsq i) (tq i).
Proof. apply dir_sees; auto. apply Hord. Qed.
Lemma tq_max i : (tq i <= 3 * length H)%nat.
Proof.
  unfold tq. pose proof (proj1 (Hord i)) as L. destruct (xs i) as [[c j] k]. cbn [fst] in L. destruct (Nat.eq_dec c (length H)) as [->|Hne].
  - cbn [stage]. replace (nth_error H (length H)) with (@None commit) by (symmetry; apply nth_error_None; auto). lia.
  - pose proof (stage_between H c j k). lia.
Qed.
Lemma g0_bounds m : (m <= length H)%nat -> 1 <= g0 /\ 0 <= g0 + Z.of_nat m < 2 ^ 62.
Proof. intros Hm. destruct Hstart as (_ & S1 & _). destruct Hrules as (R & _). lia. Qed.
Lemma st_ok m : (m <= length H)%nat -> sis_ok (St s0 H m).
Proof.
  intros Hm. destruct m as [|m]; [apply Hstart|]. unfold St. cbn [state_of]. destruct (nth_error H m) as [h|] eqn:En; [|apply nth_error_None in En; lia].
  destruct Hrules as (_ & R & _). apply (R m h En).
Qed.

Section Loop.
Context {A : Type}.
Variables (run : nat -> Z -> ran A * nat) (val : nat -> A -> Prop) (slack : nat) (dies : nat -> nat -> Prop).
Hypothesis Hrun : forall m i r i', (m <= length H)%nat -> (3 * m <= tq i + 2)%nat -> run i (g0 + Z.of_nat m) = (r, i') -> (i < i')%nat /\
  match r with
  | Ran v => val m v /\ (3 * m <= tq (i' - 1) + slack)%nat
  | Failed => (tq i + 2 = 3 * m)%nat \/ exists i2, (i <= i2 < i' /\ 3 * m + 2 <= tq i2)%nat
  | Dies => dies m i
  | Escapes => False
  end.
Definition good_end (i : nat) (r : found A * nat) : Prop :=
  match r with
  | (Found g v, e) => exists m, (m <= length H)%nat /\ g = g0 + Z.of_nat m /\ val m v /\ (tq i <= 3 * m + 1)%nat /\ (i < e)%nat /\ (3 * m <= tq (e - 1) + slack)%nat
  | (Crashed, e) => exists m i1, (i <= i1 < e)%nat /\ (m <= length H)%nat /\ dies m i1
  | _ => False
  end.
Lemma good_end_weaken i i' r : (i <= i')%nat -> good_end i' r -> good_end i r.
Proof.
  intros L. pose proof (tq_mono i i' L). destruct r as [[g v| | | | |] e]; cbn; auto.
  - intros (m & M1 & M2 & M3 & M4 & M5 & M6). exists m. repeat split; auto; lia.
  - intros (m & i1 & M1 & M2 & M3). exists m, i1. repeat split; auto; lia.
Qed.
Definition inv (last : Z) (retry : bool) (i fuel : nat) : Prop :=
  (last = -1 /\ retry = false /\ (2 * length H + 2 < fuel)%nat) \/
  exists m, (m <= length H)%nat /\ last = g0 + Z.of_nat m /\
    if retry then (3 * m + 2 <= tq i /\ 2 * (length H - m) < fuel)%nat else (3 * m <= tq i + 1 /\ 2 * (length H - m) + 1 < fuel)%nat.

Lemma loop_ok fuel : forall last retry gen i, inv last retry i fuel -> good_end i (race_loop run lsq dsq fuel 0 retry 0 last gen i).
Proof.
  induction fuel as [|f IH]; intros last retry gen i HI.
  { exfalso. destruct HI as [(_ & _ & L)|(m & M1 & M2 & M3)]; [lia|]. destruct retry; [|lia]. pose proof (tq_max i). lia. }
  pose proof (tq_sees i) as S0. pose proof (tq_max i) as T0. set (m := ((tq i + 2) / 3)%nat).
  assert (Hm : (3 * m <= tq i + 2 < 3 * m + 3)%nat). { unfold m. pose proof (Nat.div_mod (tq i + 2) 3 ltac:(lia)). pose proof (Nat.mod_upper_bound (tq i + 2) 3 ltac:(lia)). lia. }
  assert (HmN : (m <= length H)%nat) by lia. destruct (g0_bounds m HmN) as [Bg Bm].
  cbn [race_loop Nat.eqb]. replace (current_generation (lsq i)) with (g0 + Z.of_nat m) by (symmetry; exact (se_cg _ _ _ _ _ _ S0)). set (g := g0 + Z.of_nat m) in *.
  replace (g =? -1) with false by (symmetry; apply Z.eqb_neq; lia). cbn [andb orb].
  assert (Hb : (last =? g) && retry = false).
  { destruct retry; [|apply andb_false_r]. rewrite andb_true_r. apply Z.eqb_neq. destruct HI as [(-> & D & _)|(m' & M1 & -> & M3 & M4)]; [discriminate|]. unfold g. lia. }
  rewrite Hb. cbn [Nat.eqb orb andb]. rewrite Hb.
  destruct (run (S i) g) as [r i1] eqn:Er. pose proof (tq_mono i (S i) ltac:(lia)) as T1.
  destruct (Hrun m (S i) r i1 HmN ltac:(lia) Er) as [Li Hr]. destruct r as [v| | |].
  - destruct Hr as [V1 V2]. cbn. exists m. repeat split; auto; lia.
  - destruct (Z.eqb_spec last g) as [El|El].
    + (* the second attempt *)
      cbn [negb andb]. apply (good_end_weaken i i1); [lia|]. apply IH. right. exists m. split; [auto|]. split; [auto|].
      destruct HI as [(-> & _)|(m' & M1 & M2 & M3)]; [lia|]. assert (m' = m) by (unfold g in El; lia). subst m'.
      destruct retry; [cbn in Hb; discriminate|]. destruct M3 as [M3 M4]. split; [|lia].
      destruct Hr as [Hr|(i2 & I1 & I2)]; [lia|]. pose proof (tq_mono i2 i1 ltac:(lia)). lia.
    + cbn [negb andb].
      assert (Hf : (2 * (length H - m) + 1 < f)%nat).
      { destruct HI as [(_ & _ & L)|(m' & M1 & M2 & M3)]; [lia|]. destruct retry; [lia|]. assert (m' <> m) by (intros ->; apply El; auto). lia. }
      assert (Again : forall j, (i1 <= j)%nat -> (3 * m <= tq j + 1)%nat -> good_end i (race_loop run lsq dsq f 0 false 0 g g j)).
      { intros j Lj Tj. apply (good_end_weaken i j); [lia|]. apply IH. right. exists m. repeat split; auto. }
      destruct (g >? 1) eqn:Eg.
      * apply Z.gtb_lt in Eg. destruct (segfn_total (g - 1) ltac:(lia)) as (prev & Ep). rewrite Ep. pose proof (tq_sees i1) as S1.
        destruct (lookup prev (dsq i1)) as [cprev|] eqn:Lp.
        -- assert (Hm1 : m <> 0%nat). { intros E0. rewrite (se_below _ _ _ _ _ _ S1 prev) in Lp; [discriminate|]. replace (g0 - 1) with (g - 1) by (unfold g; lia). auto. }
           destruct m as [|m1] eqn:Em; [contradiction|]. replace (g - 1) with (g0 + Z.of_nat m1) in * by (unfold g; lia).
           assert (Hpart : (tq (S i) + 2 = 3 * S m1)%nat).
           { destruct Hr as [Hr|(i2 & I1 & I2)]; auto. exfalso. pose proof (tq_mono i2 i1 ltac:(lia)).
             destruct (se_old _ _ _ _ _ _ S1 m1 ltac:(lia)) as [E|[E _]]; [|lia]. rewrite (E prev Ep) in Lp. discriminate. }
           destruct (run (S i1) (g0 + Z.of_nat m1)) as [r2 i2] eqn:Er2. pose proof (tq_mono (S i) (S i1) ltac:(lia)) as T2.
           destruct (Hrun m1 (S i1) r2 i2 ltac:(lia) ltac:(lia) Er2) as [Li2 Hr2]. destruct r2 as [v2| | |].
           ++ destruct Hr2 as [V1 V2]. cbn. exists m1. repeat split; auto; lia.
           ++ apply Again; [lia|]. destruct Hr2 as [Hr2|(i3 & I3 & I4)]; [lia|]. pose proof (tq_mono i3 i2 ltac:(lia)). lia.
           ++ destruct Hr2.
           ++ cbn. exists m1, (S i1). repeat split; auto; lia.
        -- apply Again; [lia|]. destruct Hr as [Hr|(i2 & I1 & I2)].
           ++ destruct (Nat.le_gt_cases (3 * m) (tq (S i1) + 1)) as [L|L]; auto. exfalso. pose proof (tq_mono (S i) i1 ltac:(lia)). pose proof (tq_mono i1 (S i1) ltac:(lia)).
              destruct m as [|m1]; [lia|]. destruct (se_live _ _ _ _ _ _ S1 m1 ltac:(lia) ltac:(lia)) as [(fn & bs & rest & F1 & F2 & F3) _].
              replace (g - 1) with (g0 + Z.of_nat m1) in Ep by (unfold g; lia). rewrite Ep in F1. apply some_inj in F1. subst fn. rewrite Lp in F3. discriminate.
           ++ pose proof (tq_mono i2 (S i1) ltac:(lia)). lia.
      * apply Again; [lia|]. assert (m = 0%nat) by (destruct (Z.gtb_spec g 1); [discriminate|unfold g in *; lia]). lia.
  - destruct Hr.
  - cbn. exists m, (S i). repeat split; auto; lia.
Qed.
Lemma find_ok fuel : (2 * length H + 2 < fuel)%nat -> good_end 0 (race_find run lsq dsq fuel).
Proof. intros Hf. apply loop_ok. left. auto. Qed.
End Loop.

(* ---------- the descriptor *)
Definition window_hit (m i : nat) : Prop := exists n lo hi, under_way H m n (xs i) /\ fis_window (St s0 H m) = Some (lo, hi) /\ (lo <= n < hi)%nat.
Lemma run_desc m i : (m <= length H)%nat -> (3 * m <= tq i + 2)%nat ->
  (run_file dec_sis (dsq i) (g0 + Z.of_nat m) = Ran (St s0 H m) /\ (3 * m <= tq i + 1)%nat) \/
  (run_file dec_sis (dsq i) (g0 + Z.of_nat m) = Failed /\ ((tq i + 2 = 3 * m) \/ (3 * m + 2 <= tq i))%nat) \/
  (run_file dec_sis (dsq i) (g0 + Z.of_nat m) = Dies /\ window_hit m i).
Proof.
  intros Hm Ht. pose proof (tq_sees i) as S0. destruct (g0_bounds m Hm) as [Bg Bm]. destruct (segfn_total (g0 + Z.of_nat m) ltac:(lia)) as (fn & Ef).
  assert (D : described g0 s0 H m (dsq i) -> run_file dec_sis (dsq i) (g0 + Z.of_nat m) = Ran (St s0 H m)).
  { intros (fn' & bs & rest & F1 & F2 & F3). eapply run_sis; eauto. apply st_ok. auto. }
  destruct (Nat.eq_dec (tq i + 2) (3 * m)) as [E|E].
  - right. destruct (dir_part d0 g0 s0 H Hstart Hrules m (xs i) (proj1 (Hord i)) E) as (fn' & bs & n & F1 & F2 & F3 & F4 & F5 & F6).
    destruct (sis_window _ F4) as (lo & hi & b & W1 & W2 & W3). rewrite F2 in W2. apply some_inj in W2. subst b.
    assert (T := descriptor_truncated _ F4 bs lo hi n F2 W1 F3). unfold run_file, dsq. rewrite F1, F5, T. destruct ((lo <=? n) && (n <? hi))%nat eqn:Ew; [right|left]; split; auto.
    exists n, lo, hi. repeat split; auto; lia.
  - destruct (Nat.le_gt_cases (tq i) (3 * m + 1)) as [L|L].
    + left. split; [|lia]. apply D. apply (se_live _ _ _ _ _ _ S0 m); lia.
    + destruct (se_old _ _ _ _ _ _ S0 m ltac:(lia)) as [G|[_ G]].
      * right. left. split; [|lia]. unfold run_file. rewrite Ef, (G fn Ef). auto.
      * left. split; [auto|lia].
Qed.
Lemma read_good fuel : (2 * length H + 2 < fuel)%nat -> good_end (fun m v => v = St s0 H m) 1 window_hit 0 (race_find (read_run dec_sis dsq) lsq dsq fuel).
Proof.
  intros Hf. apply find_ok; auto. intros m i r i' Hm Ht E. unfold read_run in E. apply pair_equal_spec in E. destruct E as [E1 E2]. subst i'. split; [lia|].
  replace (S i - 1)%nat with i by lia.
  destruct (run_desc m i Hm Ht) as [[R C]|[[R C]|[R C]]]; rewrite R in E1; subst r; auto. destruct C as [C|C]; auto. right. exists i. lia.
Qed.

(* ---------- the version *)
Lemma version_prefix s bs n : sis_ok s -> enc_sis s = Some bs -> (12 <= n)%nat -> exists t, dec_version (firstn n bs) = POk (sis_version s) t.
Proof.
  intros Ho E Hn. destruct (version_read s Ho) as (bs' & E' & _ & _). destruct Ho as (H0 & H1 & _). unfold enc_sis in E. odestruct E.
  assert (HG : good (enc_32 0 ++ enc_64 (sis_version s)) (sis_version s) dec_version never).
  { apply good_bind0 with 0; [apply good_u32; unfold u32; lia|apply good_u64; auto]. }
  destruct HG as [G1 G2]. rewrite app_assoc. set (hd := enc_32 0 ++ enc_64 (sis_version s)) in *. rewrite firstn_app. rewrite firstn_all2 by (cbn; lia).
  rewrite G1. eauto.
Qed.
Lemma version_good fuel : (2 * length H + 2 < fuel)%nat -> good_end (fun m v => v = sis_version (St s0 H m)) 2 (fun _ _ => False) 0 (race_find (read_run dec_version dsq) lsq dsq fuel).
Proof.
  intros Hf. apply find_ok; auto. intros m i r i' Hm Ht E. unfold read_run in E. apply pair_equal_spec in E. destruct E as [E1 E2]. subst i'. split; [lia|].
  replace (S i - 1)%nat with i by lia. subst r.
  pose proof (tq_sees i) as S0. destruct (g0_bounds m Hm) as [Bg Bm]. destruct (segfn_total (g0 + Z.of_nat m) ltac:(lia)) as (fn & Ef).
  assert (D : described g0 s0 H m (dsq i) -> run_file dec_version (dsq i) (g0 + Z.of_nat m) = Ran (sis_version (St s0 H m))).
  { intros (fn' & bs & rest & F1 & F2 & F3). eapply run_version; eauto. apply st_ok. auto. }
  destruct (Nat.eq_dec (tq i + 2) (3 * m)) as [E|E].
  - destruct (dir_part d0 g0 s0 H Hstart Hrules m (xs i) (proj1 (Hord i)) E) as (fn' & bs & n & F1 & F2 & F3 & F4 & F5 & F6).
    unfold run_file, dsq. rewrite F1, F5. destruct (Nat.lt_ge_cases n 12) as [L|L].
    + destruct (version_read _ F4) as (bs' & V1 & _ & V3). rewrite F2 in V1. apply some_inj in V1. subst bs'. rewrite (V3 n L). auto.
    + destruct (version_prefix _ bs n F4 F2 L) as (t & V). rewrite V. split; [auto|lia].
  - destruct (Nat.le_gt_cases (tq i) (3 * m + 1)) as [L|L].
    + rewrite D; [split; [auto|lia]|]. apply (se_live _ _ _ _ _ _ S0 m); lia.
    + destruct (se_old _ _ _ _ _ _ S0 m ltac:(lia)) as [G|[_ G]].
      * unfold run_file. rewrite Ef, (G fn Ef). right. exists i. lia.
      * rewrite D by auto. split; [auto|lia].
Qed.

(* ---------- the files *)
Variable needs : seg_infos -> list (list Z).
Hypothesis Hneeds : forall m fn, (m <= length H)%nat -> In fn (needs (state_of s0 H m)) -> commit_file (state_of s0 H m) fn /\ lookup fn (world d0 g0 H m) <> None.
Definition opened (m : nat) (v : seg_infos * list (list Z)) : Prop :=
  fst v = St s0 H m /\ map Some (snd v) = map (fun fn => lookup fn (W d0 g0 H m)) (needs (St s0 H m)).
Lemma open_ok m l : (m <= length H)%nat -> (forall fn, In fn l -> In fn (needs (St s0 H m))) -> forall i r i', (3 * m <= tq i + 1)%nat -> open_files dsq l i = (r, i') ->
  (i <= i')%nat /\ match r with
                   | Some cs => map Some cs = map (fun fn => lookup fn (W d0 g0 H m)) l
                   | None => exists i2, (i <= i2 < i' /\ 3 * m + 2 <= tq i2)%nat
                   end.
Proof.
  intros Hm. induction l as [|fn l IH]; intros Hl i r i' Ht E; cbn [open_files] in E.
  - apply pair_equal_spec in E. destruct E; subst. cbn. auto.
  - destruct (Hneeds m fn Hm (Hl fn (or_introl eq_refl))) as [N1 N2]. pose proof (tq_sees i) as S0. destruct (lookup fn (dsq i)) as [c|] eqn:Lf.
    + destruct (open_files dsq l (S i)) as [r' i1] eqn:Er. apply pair_equal_spec in E. destruct E; subst. pose proof (tq_mono i (S i) ltac:(lia)).
      destruct (IH (fun f If => Hl f (or_intror If)) (S i) r' i' ltac:(lia) Er) as [L1 L2]. split; [lia|]. destruct r' as [cs|]; cbn [option_map].
      * cbn [map]. rewrite L2. f_equal. destruct (se_files _ _ _ _ _ _ S0 m fn Ht N1) as [Q|Q]; rewrite Q in Lf; congruence.
      * destruct L2 as (i2 & I1 & I2). exists i2. lia.
    + apply pair_equal_spec in E. destruct E; subst. split; [lia|]. exists i. split; [lia|].
      destruct (Nat.le_gt_cases (3 * m + 2) (tq i)) as [|L]; auto. exfalso. destruct (se_live _ _ _ _ _ _ S0 m ltac:(lia) ltac:(lia)) as [_ Q].
      rewrite (Q fn N1) in Lf. contradiction.
Qed.
Lemma open_good fuel : (2 * length H + 2 < fuel)%nat -> good_end opened 1 window_hit 0 (race_find (open_run needs dsq) lsq dsq fuel).
Proof.
  intros Hf. apply find_ok; auto. intros m i r i' Hm Ht E. unfold open_run in E.
  destruct (run_desc m i Hm Ht) as [[R C]|[[R C]|[R C]]]; rewrite R in E.
  - destruct (open_files dsq (needs (St s0 H m)) (S i)) as [q i1] eqn:Eo. pose proof (tq_mono i (S i) ltac:(lia)).
    destruct (open_ok m _ Hm (fun f If => If) (S i) q i1 ltac:(lia) Eo) as [L1 L2]. destruct q as [cs|]; apply pair_equal_spec in E; destruct E; subst; split; try lia.
    + split; [split; auto|]. pose proof (tq_mono i (i' - 1) ltac:(lia)). lia.
    + right. destruct L2 as (i2 & I1 & I2). exists i2. lia.
  - apply pair_equal_spec in E. destruct E; subst. split; [lia|]. destruct C as [C|C]; auto. right. exists i. lia.
  - apply pair_equal_spec in E. destruct E; subst. split; [lia|auto].
Qed.
End Reader.

(* ---------- the statements *)
Theorem sis_read_race d g s H xs fuel : starts d g s -> follows_rules g s H -> in_order xs (length H) -> (2 * length H + 2 < fuel)%nat ->
  let ds i := dir_at d g H (xs i) in
  match race_find (read_run dec_sis ds) (fun i => names (ds i)) ds fuel with
  | (Found gen v, e) => exists m, (m <= length H)%nat /\ gen = g + Z.of_nat m /\ v = state_of s H m /\ (0 < e)%nat /\ current_between H m (xs 0%nat) (xs (e - 1)%nat)
  | (Crashed, e) => exists m i n lo hi, (i < e)%nat /\ under_way H m n (xs i) /\ fis_window (state_of s H m) = Some (lo, hi) /\ (lo <= n < hi)%nat
  | _ => False
  end.
Proof.
  intros H1 H2 H3 H4 ds. pose proof (read_good d g s H xs H1 H2 H3 fuel H4) as G. unfold good_end in G. change (race_find (read_run dec_sis (dsq d g H xs)) (lsq d g H xs) (dsq d g H xs) fuel) with
    (race_find (read_run dec_sis ds) (fun i => names (ds i)) ds fuel) in G. destruct (race_find _ _ _ _) as [[gen v| | | | |] e]; auto.
  - destruct G as (m & M1 & M2 & M3 & M4 & M5 & M6). exists m. repeat split; auto.
    + rewrite (stage_complete g s H H2) by apply H3. unfold tq in M4. lia.
    + rewrite (stage_complete g s H H2) by apply H3. exact M6.
  - destruct G as (m & i & M1 & M2 & n & lo & hi & M3 & M4 & M5). exists m, i, n, lo, hi. repeat split; auto; lia.
Qed.
Theorem ir_open_race d g s H xs fuel needs : starts d g s -> follows_rules g s H -> in_order xs (length H) -> (2 * length H + 2 < fuel)%nat ->
  (forall m fn, (m <= length H)%nat -> In fn (needs (state_of s H m)) -> commit_file (state_of s H m) fn /\ lookup fn (world d g H m) <> None) ->
  let ds i := dir_at d g H (xs i) in
  match race_find (open_run needs ds) (fun i => names (ds i)) ds fuel with
  | (Found gen (v, cs), e) => exists m, (m <= length H)%nat /\ gen = g + Z.of_nat m /\ v = state_of s H m /\
      map Some cs = map (fun fn => lookup fn (world d g H m)) (needs v) /\ (0 < e)%nat /\ current_between H m (xs 0%nat) (xs (e - 1)%nat)
  | (Crashed, e) => exists m i n lo hi, (i < e)%nat /\ under_way H m n (xs i) /\ fis_window (state_of s H m) = Some (lo, hi) /\ (lo <= n < hi)%nat
  | _ => False
  end.
Proof.
  intros H1 H2 H3 H4 H5 ds. pose proof (open_good d g s H xs H1 H2 H3 needs H5 fuel H4) as G. unfold good_end in G. change (race_find (open_run needs (dsq d g H xs)) (lsq d g H xs) (dsq d g H xs) fuel) with
    (race_find (open_run needs ds) (fun i => names (ds i)) ds fuel) in G. destruct (race_find _ _ _ _) as [[gen [v cs]| | | | |] e]; auto.
  - destruct G as (m & M1 & M2 & [M3 M3'] & M4 & M5 & M6). cbn [fst snd] in M3, M3'. exists m. split; [auto|]. split; [auto|]. split; [auto|]. split; [rewrite M3; exact M3'|]. split; [auto|]. split.
    + rewrite (stage_complete g s H H2) by apply H3. unfold tq in M4. lia.
    + rewrite (stage_complete g s H H2) by apply H3. exact M6.
  - destruct G as (m & i & M1 & M2 & n & lo & hi & M3 & M4 & M5). exists m, i, n, lo, hi. repeat split; auto; lia.
Qed.
Theorem version_race d g s H xs fuel : starts d g s -> follows_rules g s H -> in_order xs (length H) -> (2 * length H + 2 < fuel)%nat ->
  let ds i := dir_at d g H (xs i) in
  exists m e, race_find (read_run dec_version ds) (fun i => names (ds i)) ds fuel = (Found (g + Z.of_nat m) (sis_version (state_of s H m)), e) /\
    (0 < e)%nat /\ (m <= length H)%nat /\ ~ complete H (S m) (xs 0%nat) /\ (complete H m (xs (e - 1)%nat) \/ exists n, under_way H m n (xs (e - 1)%nat)).
Proof.
  intros H1 H2 H3 H4 ds. pose proof (version_good d g s H xs H1 H2 H3 fuel H4) as G. unfold good_end in G. change (race_find (read_run dec_version (dsq d g H xs)) (lsq d g H xs) (dsq d g H xs) fuel) with
    (race_find (read_run dec_version ds) (fun i => names (ds i)) ds fuel) in G. destruct (race_find _ _ _ _) as [[gen v| | | | |] e]; try contradiction.
  - destruct G as (m & M1 & M2 & M3 & M4 & M5 & M6). exists m, e. split; [rewrite M2, M3; auto|]. split; [auto|]. split; [auto|]. split.
    + rewrite (stage_complete g s H H2) by apply H3. unfold tq in M4. lia.
    + unfold tq in M6. destruct (Nat.eq_dec (stage H (xs (e - 1)%nat) + 2) (3 * m)) as [E|E].
      * right. destruct (dir_part d g s H H1 H2 m (xs (e - 1)%nat) (proj1 (H3 _)) E) as (fn & bs & n & F). exists n. apply F.
      * left. apply (stage_complete g s H H2); [apply H3|]. lia.
  - destruct G as (m & i & _ & _ & []).
Qed.
