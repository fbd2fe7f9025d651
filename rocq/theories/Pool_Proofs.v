From Verif Require Import Util Pool_Model Pool_Spec.
Open Scope Z_scope.
Ltac splits' := repeat match goal with |- _ /\ _ => split end; try lia; try reflexivity.
Definition after (x y : addr * Z) : Prop := fst (fst x) < fst (fst y) \/ fst (fst x) = fst (fst y) /\ snd (fst x) + snd x <= snd (fst y).
Definition holds (p : pool) (x : addr * Z) (bytes : list Z) : Prop :=
  snd x = Z.of_nat (length bytes) /\ 0 <= fst (fst x) <= p_bp p /\ 0 <= snd (fst x) /\ snd (fst x) + snd x <= p_chunk p /\ (fst (fst x) = p_bp p -> snd (fst x) + snd x <= p_ptr p) /\
  forall i, (i < length bytes)%nat -> p_mem p (fst (fst x)) (snd (fst x) + Z.of_nat i) = nth i bytes 0.
Record Inv (H C ch : Z) (s : pstate) (bs : list (list Z)) : Prop := mkInv {
  i_chunk : p_chunk (fst s) = ch;
  i_bp : 0 <= p_bp (fst s) < p_alloc (fst s);
  i_alloc : p_alloc (fst s) <= p_capa (fst s);
  i_high : p_alloc (fst s) <= H;
  i_capa : p_capa (fst s) <= C;
  i_ptr : 0 <= p_ptr (fst s) <= ch;
  i_len : length (snd s) = length bs;
  i_holds : forall k x, nth_error (snd s) k = Some x -> exists bytes, nth_error bs k = Some bytes /\ holds (fst s) x bytes;
  i_apart : forall j k x y, (j < k)%nat -> nth_error (snd s) j = Some x -> nth_error (snd s) k = Some y -> after x y }.
Lemma nth_snoc {A} (l : list A) a k x : nth_error (l ++ [a]) k = Some x -> nth_error l k = Some x \/ k = length l /\ x = a.
Proof.
  intros H. destruct (Nat.lt_ge_cases k (length l)) as [G|G]; [rewrite nth_error_app1 in H by exact G; auto|]. rewrite nth_error_app2 in H by exact G. right.
  destruct (k - length l)%nat as [|m] eqn:E; cbn in H; [split; [lia|congruence]|destruct m; discriminate].
Qed.
Lemma new_ok chunk capa mem p H C : mp_new_capa chunk capa mem = Some p -> 1 <= H -> capa <= C -> Inv H C chunk (p, []) [].
Proof.
  unfold mp_new_capa. destruct (Z.ltb_spec chunk 0), (Z.ltb_spec capa 1); cbn [orb]; intros E HH HC; try discriminate. apply some_inj in E. subst p.
  constructor; cbn [fst snd p_chunk p_bp p_alloc p_capa p_ptr length]; try lia; [intros k x E|intros j k x y _ E]; destruct k + destruct j; discriminate.
Qed.
Lemma alloc_ok H C ch s bs n : Inv H C ch s bs -> 2 * H <= C -> C <= INT_MAX -> 2 * ch <= INT_MAX -> p_bp (fst s) + 2 <= H -> 0 <= n <= ch ->
  exists a p, mp_alloc (fst s) n = Some (a, p) /\ p_chunk p = ch /\ 0 <= p_bp p < p_alloc p /\ p_alloc p <= p_capa p /\ p_alloc p <= H /\ p_capa p <= C /\ 0 <= p_ptr p <= ch /\ p_mem p = p_mem (fst s) /\
    p_bp (fst s) <= p_bp p <= p_bp (fst s) + 1 /\ fst a = p_bp p /\ 0 <= snd a /\ snd a + n = p_ptr p /\ (forall k x, nth_error (snd s) k = Some x -> after x (a, n) /\ (fst (fst x) = p_bp p -> snd (fst x) + snd x <= p_ptr p)).
Proof.
  intros HI HC HM HCH HB Hn. destruct HI as [E1 (B1 & B2) A1 A2 A3 (P1 & P2) L HH HA]. unfold mp_alloc. rewrite E1.
  assert (HK : forall k x, nth_error (snd s) k = Some x -> 0 <= fst (fst x) <= p_bp (fst s) /\ (fst (fst x) = p_bp (fst s) -> snd (fst x) + snd x <= p_ptr (fst s))) by (intros k x E; destruct (HH k x E) as (bytes & _ & G); unfold holds in G; tauto).
  destruct (Z.ltb_spec INT_MAX (p_ptr (fst s) + n)); [lia|]. destruct (Z.ltb_spec ch (p_ptr (fst s) + n)) as [G|G].
  - destruct (Z.leb_spec (p_alloc (fst s)) (p_bp (fst s) + 1)) as [G1|G1].
    + set (capa := if p_capa (fst s) <=? p_alloc (fst s) + 1 then p_capa (fst s) * 2 else p_capa (fst s)).
      assert (HCa : p_alloc (fst s) + 1 <= capa <= C) by (unfold capa; destruct (Z.leb_spec (p_capa (fst s)) (p_alloc (fst s) + 1)); lia).
      destruct (Z.ltb_spec INT_MAX capa); [lia|]. destruct (Z.leb_spec capa (p_bp (fst s) + 1)); [lia|]. cbn [orb]. eexists _, _. split; [reflexivity|]. cbn [p_chunk p_bp p_alloc p_capa p_ptr p_mem fst snd].
      splits'. intros k x E. destruct (HK k x E) as (K1 & K2). unfold after. cbn [fst snd]. lia.
    + eexists _, _. split; [reflexivity|]. cbn [p_chunk p_bp p_alloc p_capa p_ptr p_mem fst snd]. splits'. intros k x E. destruct (HK k x E) as (K1 & K2). unfold after. cbn [fst snd]. lia.
  - eexists _, _. split; [reflexivity|]. cbn [p_chunk p_bp p_alloc p_capa p_ptr p_mem fst snd]. splits'. intros k x E. destruct (HK k x E) as (K1 & K2). unfold after. cbn [fst snd]. lia.
Qed.
Lemma nth_error_ext' {A} : forall l m : list A, (forall i, nth_error l i = nth_error m i) -> l = m.
Proof. induction l as [|x l IH]; intros [|y m] H; [reflexivity|specialize (H 0%nat); discriminate|specialize (H 0%nat); discriminate|]. pose proof (H 0%nat) as E. cbn in E. apply some_inj in E. subst y. f_equal. apply IH. intros i. apply (H (S i)). Qed.
Lemma inside_ok p a n : 0 <= fst a < p_alloc p -> 0 <= snd a -> snd a + n <= p_chunk p -> inside p a n = true.
Proof. unfold inside. intros. rewrite !andb_true_iff. repeat split; try (apply Z.leb_le; lia); apply Z.ltb_lt; lia. Qed.
Lemma take_ok H C ch s bs n g bytes : Inv H C ch s bs -> 2 * H <= C -> C <= INT_MAX -> 2 * ch <= INT_MAX -> p_bp (fst s) + 2 <= H -> 0 <= n <= ch ->
  n = Z.of_nat (length bytes) -> (forall i, (i < length bytes)%nat -> g (Z.of_nat i) = nth i bytes 0) ->
  exists s', take s n g = Some s' /\ Inv H C ch s' (bs ++ [bytes]) /\ p_bp (fst s') <= p_bp (fst s) + 1.
Proof.
  intros HI HC HM HCH HB Hn En Hg. destruct (alloc_ok H C ch s bs n HI HC HM HCH HB Hn) as (a & p & E & Q1 & Q2 & Q3 & Q4 & Q5 & Q6 & Q7 & Q8 & Q9 & Q10 & Q11 & Q12).
  unfold take. rewrite E. cbn [obind fst snd]. unfold blit. rewrite inside_ok by lia. cbn [obind]. eexists. split; [reflexivity|]. split; [|cbn [fst p_bp]; lia].
  destruct HI as [E1 B1 A1 A2 A3 P1 L HH HA]. constructor; cbn [fst snd p_chunk p_bp p_alloc p_capa p_ptr p_mem]; try assumption; try lia.
  - rewrite !app_length, L. reflexivity.
  - intros k x Hk. apply nth_snoc in Hk. destruct Hk as [Hk|(-> & ->)].
    + destruct (HH k x Hk) as (by0 & G1 & G2). exists by0. split; [rewrite nth_error_app1; [exact G1|apply nth_error_Some; congruence]|]. destruct (Q12 k x Hk) as (G3 & G4). unfold holds in *. cbn [p_chunk p_bp p_alloc p_capa p_ptr p_mem].
      destruct G2 as (R1 & R2 & R3 & R4 & R5 & R6). splits'. intros i Hi. rewrite <- R6, Q7 by exact Hi. destruct ((fst (fst x) =? fst a) && (snd a <=? snd (fst x) + Z.of_nat i) && (snd (fst x) + Z.of_nat i <? snd a + n)) eqn:Eb; [|reflexivity].
      exfalso. rewrite !andb_true_iff in Eb. destruct Eb as ((T1 & T2) & T3). apply Z.eqb_eq in T1. apply Z.leb_le in T2. apply Z.ltb_lt in T3. unfold after in G3. cbn [fst snd] in G3. lia.
    + exists bytes. split; [rewrite nth_error_app2, L, Nat.sub_diag by lia; reflexivity|]. unfold holds. cbn [fst snd p_chunk p_bp p_alloc p_capa p_ptr p_mem]. splits'. intros i Hi. rewrite <- Hg by exact Hi. rewrite Z.eqb_refl. cbn [andb].
      destruct (Z.leb_spec (snd a) (snd a + Z.of_nat i)); [|lia]. destruct (Z.ltb_spec (snd a + Z.of_nat i) (snd a + n)); [|lia]. cbn [andb]. f_equal. lia.
  - intros j k x y Hjk Hj Hk. apply nth_snoc in Hj. apply nth_snoc in Hk. assert (HL : forall k x, nth_error (snd s) k = Some x -> (k < length (snd s))%nat) by (intros; apply nth_error_Some; congruence).
    destruct Hj as [Hj|(-> & ->)]; destruct Hk as [Hk|(-> & ->)]; [eauto|apply (Q12 j x Hj)|apply HL in Hk; lia|lia].
Qed.
Lemma poke_ok H C ch s bs k off b bytes : Inv H C ch s bs -> nth_error bs k = Some bytes -> 0 <= off < Z.of_nat (length bytes) ->
  exists s', pstep s (Poke k off b) = Some s' /\ Inv H C ch s' (upd bs k (upd bytes (Z.to_nat off) b)) /\ p_bp (fst s') = p_bp (fst s) /\ snd s' = snd s.
Proof.
  intros [E1 B1 A1 A2 A3 P1 L HH HA] Hk Ho. cbn [pstep]. destruct (nth_error (snd s) k) as [x|] eqn:Ex; [|apply nth_error_None in Ex; assert (k < length bs)%nat by (apply nth_error_Some; congruence); lia].
  cbn [obind]. destruct (HH k x Ex) as (by0 & G1 & G2). rewrite Hk in G1. apply some_inj in G1. subst by0. pose proof G2 as (R1 & R2 & R3 & R4 & R5 & R6). unfold blit. rewrite inside_ok by (cbn [fst snd]; lia). cbn [obind]. eexists. split; [reflexivity|]. cbn [fst snd p_bp]. split; [|auto].
  constructor; cbn [fst snd p_chunk p_bp p_alloc p_capa p_ptr p_mem]; try assumption.
  - rewrite upd_length. exact L.
  - intros j y Hj. destruct (HH j y Hj) as (by1 & G3 & G4). rewrite nth_error_upd. destruct (Nat.eq_dec k j) as [->|Hne].
    + rewrite Nat.eqb_refl. assert (HL : (j < length bs)%nat) by (apply nth_error_Some; congruence). destruct (Nat.ltb_spec j (length bs)); [|lia]. rewrite Ex in Hj. apply some_inj in Hj. subst y. eexists. split; [reflexivity|]. unfold holds. cbn [p_chunk p_bp p_alloc p_capa p_ptr p_mem]. rewrite upd_length. splits'.
      intros i Hi. rewrite nth_upd. rewrite Z.eqb_refl. cbn [andb]. destruct (Nat.eqb_spec (Z.to_nat off) i) as [Ei|Ei].
      * destruct (Nat.ltb_spec (Z.to_nat off) (length bytes)); [|lia]. destruct (Z.leb_spec (snd (fst x) + off) (snd (fst x) + Z.of_nat i)); [|lia]. destruct (Z.ltb_spec (snd (fst x) + Z.of_nat i) (snd (fst x) + off + 1)); [|lia]. reflexivity.
      * cbn [andb]. rewrite <- R6 by exact Hi. destruct (Z.leb_spec (snd (fst x) + off) (snd (fst x) + Z.of_nat i)); [|reflexivity]. destruct (Z.ltb_spec (snd (fst x) + Z.of_nat i) (snd (fst x) + off + 1)); [lia|reflexivity].
    + destruct (Nat.eqb_spec k j); [contradiction|]. exists by1. cbn [andb]. split; [exact G3|]. unfold holds in *. cbn [p_chunk p_bp p_alloc p_capa p_ptr p_mem]. destruct G4 as (S1 & S2 & S3 & S4 & S5 & S6). splits'. intros i Hi. rewrite <- S6 by exact Hi.
      destruct ((fst (fst y) =? fst (fst x)) && (snd (fst x) + off <=? snd (fst y) + Z.of_nat i) && (snd (fst y) + Z.of_nat i <? snd (fst x) + off + 1)) eqn:Eb; [|reflexivity].
      exfalso. rewrite !andb_true_iff in Eb. destruct Eb as ((T1 & T2) & T3). apply Z.eqb_eq in T1. apply Z.leb_le in T2. apply Z.ltb_lt in T3.
      destruct (Nat.lt_ge_cases j k) as [G|G]; [pose proof (HA j k y x G Hj Ex) as G5|pose proof (HA k j x y ltac:(lia) Ex Hj) as G5]; unfold after in G5; lia.
Qed.
Lemma reset_ok H C ch s bs : Inv H C ch s bs -> Inv H C ch (mp_reset (fst s), []) [].
Proof.
  intros [E1 B1 A1 A2 A3 P1 L HH HA]. constructor; cbn [fst snd mp_reset p_chunk p_bp p_alloc p_capa p_ptr p_mem length]; try assumption; try lia; [intros k x E|intros j k x y _ E]; destruct k + destruct j; discriminate.
Qed.
Lemma step_ok H C ch s bs o bs' : Inv H C ch s bs -> 2 * H <= C -> C <= INT_MAX -> 2 * ch <= INT_MAX -> p_bp (fst s) + 2 <= H -> fits ch o -> sstep bs o = Some bs' ->
  exists s', pstep s o = Some s' /\ Inv H C ch s' bs' /\ p_bp (fst s') <= match o with Reset => 0 | Poke _ _ _ => p_bp (fst s) | _ => p_bp (fst s) + 1 end.
Proof.
  intros HI HC HM HCH HB HF HS. destruct o as [bytes|n|k off b|]; cbn [sstep fits pstep] in *.
  - apply some_inj in HS. subst bs'. apply take_ok with (bytes := bytes) (bs := bs); try assumption; try lia. intros i _. rewrite Nat2Z.id. reflexivity.
  - apply some_inj in HS. subst bs'. apply take_ok with (bytes := repeat 0 (Z.to_nat n)) (bs := bs); try assumption; rewrite ?repeat_length; try lia. intros i _. rewrite nth_repeat. reflexivity.
  - destruct (nth_error bs k) as [x|] eqn:Ex; [|discriminate]. cbn [obind] in HS. destruct ((0 <=? off) && (off <? Z.of_nat (length x))) eqn:Eb; [|discriminate]. apply some_inj in HS. subst bs'. apply andb_true_iff in Eb. destruct Eb as (T1 & T2). apply Z.leb_le in T1. apply Z.ltb_lt in T2.
    destruct (poke_ok H C ch s bs k off b x HI Ex ltac:(lia)) as (s' & G1 & G2 & G3 & _). cbn [pstep] in G1. exists s'. split; [exact G1|]. split; [exact G2|lia].
  - apply some_inj in HS. subst bs'. eexists. split; [reflexivity|]. split; [apply (reset_ok _ _ _ _ _ HI)|]. pose proof (i_bp _ _ _ _ _ HI). cbn [fst mp_reset p_bp]. lia.
Qed.
Lemma run_ok H C ch : 2 * H <= C -> C <= INT_MAX -> 2 * ch <= INT_MAX -> forall ops n s bs bs', Inv H C ch s bs -> p_bp (fst s) <= n -> n + 2 <= H -> spaced (H - 2) n ops -> Forall (fits ch) ops -> srun bs ops = Some bs' ->
  exists s', prun s ops = Some s' /\ Inv H C ch s' bs'.
Proof.
  intros HC HM HCH. induction ops as [|o ops IH]; intros n s bs bs' HI HB HN HP HF HS; cbn [prun srun spaced] in *; [apply some_inj in HS; subst bs'; eauto|].
  destruct (sstep bs o) as [b1|] eqn:E1; [|discriminate]. cbn [obind] in HS. inversion HF as [|? ? F1 F2]; subst. destruct (step_ok H C ch s bs o b1 HI HC HM HCH ltac:(lia) F1 E1) as (s1 & G1 & G2 & G3). rewrite G1. cbn [obind]. pose proof (i_bp _ _ _ _ _ HI). destruct o.
  - destruct HP. apply (IH (n + 1) s1 b1 bs' G2); try assumption; lia.
  - destruct HP. apply (IH (n + 1) s1 b1 bs' G2); try assumption; lia.
  - apply (IH n s1 b1 bs' G2); try assumption; lia.
  - apply (IH 0 s1 b1 bs' G2); try assumption; lia.
Qed.
Lemma fetch_ok H C ch s bs k x bytes : Inv H C ch s bs -> nth_error (snd s) k = Some x -> nth_error bs k = Some bytes -> forall n, (n <= length bytes)%nat -> fetch (fst s) (fst x) (Z.of_nat n) = Some (firstn n bytes).
Proof.
  intros [E1 B1 A1 A2 A3 P1 L HH HA] Hx Hb n Hn. destruct (HH k x Hx) as (b0 & G1 & R1 & R2 & R3 & R4 & R5 & R6). rewrite Hb in G1. apply some_inj in G1. subst b0. unfold fetch. rewrite inside_ok by lia. f_equal. rewrite Nat2Z.id.
  apply nth_error_ext'. intros i. rewrite nth_error_map. destruct (Nat.lt_ge_cases i n) as [G|G].
  - rewrite (nth_error_nth' _ 0%nat) by (rewrite seq_length; exact G). rewrite seq_nth by exact G. cbn [option_map Nat.add]. rewrite R6 by lia. symmetry. rewrite nth_error_firstn. destruct (Nat.ltb_spec i n); [|lia]. apply nth_error_nth'. lia.
  - transitivity (@None Z); [|symmetry; apply nth_error_None; rewrite firstn_length; lia]. destruct (nth_error (seq 0 n) i) eqn:E; [|reflexivity]. assert (i < length (seq 0 n))%nat by (apply nth_error_Some; congruence). rewrite seq_length in *. lia.
Qed.
Lemma contents_ok H C ch s bs : Inv H C ch s bs -> contents s = map Some bs.
Proof.
  intros HI. unfold contents. apply nth_error_ext'. intros k. rewrite !nth_error_map. destruct (nth_error (snd s) k) as [x|] eqn:Ex.
  - destruct (i_holds _ _ _ _ _ HI k x Ex) as (bytes & G1 & G2). rewrite G1. cbn [option_map]. f_equal. destruct G2 as (-> & _). rewrite (fetch_ok H C ch s bs k x bytes HI Ex G1 (length bytes) ltac:(lia)). rewrite firstn_all. reflexivity.
  - apply nth_error_None in Ex. rewrite (i_len _ _ _ _ _ HI) in Ex. apply nth_error_None in Ex. rewrite Ex. reflexivity.
Qed.
(* the blocks of a pool are arrays of their own *)
Theorem pool_blocks chunk capa mem ops bs : 1 <= capa <= 1073741823 -> 0 <= chunk <= 1073741823 -> Forall (fits chunk) ops -> spaced 536870909 0 ops -> srun [] ops = Some bs ->
  exists p s, mp_new_capa chunk capa mem = Some p /\ prun (p, []) ops = Some s /\ contents s = map Some bs /\
    (forall i j x y, i <> j -> nth_error (snd s) i = Some x -> nth_error (snd s) j = Some y -> fst (fst x) <> fst (fst y) \/ snd (fst x) + snd x <= snd (fst y) \/ snd (fst y) + snd y <= snd (fst x)).
Proof.
  intros HCa HCh HF HN HS. assert (EP : mp_new_capa chunk capa mem = Some (mkPool 1 capa 0 0 chunk mem)) by (unfold mp_new_capa; destruct (Z.ltb_spec chunk 0), (Z.ltb_spec capa 1); try lia; reflexivity).
  exists (mkPool 1 capa 0 0 chunk mem). pose proof (new_ok chunk capa mem _ 536870911 1073741823 EP ltac:(lia) ltac:(lia)) as HI.
  destruct (run_ok 536870911 1073741823 chunk ltac:(lia) ltac:(unfold INT_MAX; lia) ltac:(unfold INT_MAX; lia) ops 0 _ [] bs HI ltac:(cbn [fst p_bp]; lia) ltac:(lia) HN HF HS) as (s & G1 & G2). exists s. splits'; [exact EP|exact G1|apply (contents_ok _ _ _ _ _ G2)|].
  intros j k x y Hjk Hx Hy. destruct (Nat.lt_ge_cases j k) as [Q|Q]; [pose proof (i_apart _ _ _ _ _ G2 j k x y Q Hx Hy) as G|pose proof (i_apart _ _ _ _ _ G2 k j y x ltac:(lia) Hy Hx) as G]; unfold after in G; lia.
Qed.
