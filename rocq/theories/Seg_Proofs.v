From Coq Require Import String.
From Verif Require Import Util Codec_Model Codec_Spec Codec_Proofs Seg_Model Seg_Spec.
Open Scope Z_scope.

(* ================= names *)
Definition b36 (c : Z) : Prop := 48 <= c <= 57 \/ 97 <= c <= 122.
Definition dval (c : Z) : Z := if c <=? 57 then c - 48 else c - 87.
Fixpoint value (base u : Z) (s : list Z) : Z := match s with [] => u | c :: t => value base (u * base + dval c) t end.
Lemma digit36_ok d : 0 <= d < 36 -> b36 (digit36 d) /\ dval (digit36 d) = d.
Proof.
  intros H. unfold digit36, b36, dval. destruct (Z.ltb_spec d 10).
  - destruct (Z.leb_spec (48 + d) 57); lia.
  - destruct (Z.leb_spec (97 + (d - 10)) 57); lia.
Qed.
Lemma value_app base u a b : value base u (a ++ b) = value base (value base u a) b.
Proof. revert u. induction a as [|c a IH]; intros u; cbn; auto. Qed.
Lemma str36_loop_ok : forall n u acc, 0 <= u < 36 ^ Z.of_nat n -> (0 < n)%nat ->
  exists ds, str36_loop n u acc = Some (ds ++ acc) /\ Forall b36 ds /\ ds <> [] /\ value 36 0 ds = u.
Proof.
  induction n as [|n IH]; intros u acc Hu Hn; [lia|]. cbn [str36_loop].
  pose proof (Z.mod_pos_bound u 36 ltac:(lia)) as Hm. destruct (digit36_ok (u mod 36) Hm) as [Hb Hv].
  pose proof (Z.div_mod u 36 ltac:(lia)) as E.
  destruct (Z.eqb_spec (u / 36) 0) as [H0|H0].
  - exists [digit36 (u mod 36)]. split; auto. split; [constructor; auto|]. split; [discriminate|]. cbn [value]. rewrite Hv. lia.
  - assert (H1 : 0 <= u / 36) by (apply Z.div_pos; lia).
    assert (H2 : u / 36 < 36 ^ Z.of_nat n).
    { apply Z.div_lt_upper_bound; [lia|]. rewrite <- Z.pow_succ_r by lia. replace (Z.succ (Z.of_nat n)) with (Z.of_nat (S n)) by lia. lia. }
    destruct n as [|n]; [cbn in H2; lia|].
    destruct (IH (u / 36) (digit36 (u mod 36) :: acc) ltac:(lia) ltac:(lia)) as (ds & R1 & R2 & R3 & R4).
    exists (ds ++ [digit36 (u mod 36)]). split; [rewrite <- app_assoc; exact R1|]. split; [apply Forall_app; split; auto|].
    split; [destruct ds; discriminate|]. rewrite value_app, R4. cbn [value]. rewrite Hv. lia.
Qed.
Lemma to36 size u : (14 <= size)%nat -> 0 <= u < 2 ^ 64 -> exists ds, u64_to_str36 size u = Some ds /\ Forall b36 ds /\ ds <> [] /\ value 36 0 ds = u.
Proof.
  intros Hs Hu. unfold u64_to_str36. destruct (str36_loop_ok (size - 1) u []) as (ds & R1 & R2 & R3 & R4).
  - split; [lia|]. apply Z.lt_le_trans with (36 ^ 13); [lia|]. apply Z.pow_le_mono_r; lia.
  - lia.
  - rewrite app_nil_r in R1. eauto.
Qed.
Lemma value_mod s : forall u, Forall b36 s -> value 36 u s mod 2 ^ 64 = value 36 (u mod 2 ^ 64) s mod 2 ^ 64.
Proof.
  induction s as [|c s IH]; intros u H; cbn [value].
  - rewrite Z.mod_mod by lia. reflexivity.
  - inversion H; subst. rewrite IH by auto. rewrite (IH (u mod 2 ^ 64 * 36 + dval c)) by auto. f_equal. f_equal.
    rewrite <- (Z.add_mod_idemp_l (u * 36)) by lia. rewrite <- (Z.add_mod_idemp_l (u mod 2 ^ 64 * 36)) by lia. rewrite Z.mul_mod_idemp_l by lia. reflexivity.
Qed.
Lemma str36_from_value s : forall u, Forall b36 s -> 0 <= u < 2 ^ 64 -> str36_from u s = value 36 u s mod 2 ^ 64.
Proof.
  induction s as [|c s IH]; intros u H Hu; cbn [str36_from value].
  - symmetry. apply Z.mod_small. auto.
  - inversion H as [|? ? Hc Hs]; subst. rewrite value_mod by auto. unfold b36, dval in *.
    destruct (Z.leb_spec 48 c); destruct (Z.leb_spec c 57); cbn [andb]; try lia.
    + rewrite IH by (auto; apply Z.mod_pos_bound; lia). reflexivity.
    + destruct (Z.leb_spec 97 c); destruct (Z.leb_spec c 122); cbn [andb]; try lia.
      rewrite IH by (auto; apply Z.mod_pos_bound; lia). do 3 f_equal. lia.
Qed.
Lemma base36_roundtrip size u : (14 <= size)%nat -> 0 <= u < 2 ^ 64 -> exists s, u64_to_str36 size u = Some s /\ str36_to_u64 s = u.
Proof.
  intros Hs Hu. destruct (to36 size u Hs Hu) as (ds & R1 & R2 & R3 & R4). exists ds. split; auto.
  unfold str36_to_u64. rewrite str36_from_value by (auto; lia). rewrite R4. apply Z.mod_small. auto.
Qed.
Lemma to36_inj s1 s2 u v ds : (14 <= s1)%nat -> (14 <= s2)%nat -> 0 <= u < 2 ^ 64 -> 0 <= v < 2 ^ 64 ->
  u64_to_str36 s1 u = Some ds -> u64_to_str36 s2 v = Some ds -> u = v.
Proof.
  intros H1 H2 Hu Hv E1 E2. destruct (to36 s1 u H1 Hu) as (d & R1 & _ & _ & R4). destruct (to36 s2 v H2 Hv) as (d' & R1' & _ & _ & R4'). congruence.
Qed.

Lemma dec10_ok : forall n u acc, 0 <= u < 10 ^ Z.of_nat n -> (0 < n)%nat ->
  exists ds, dec_loop10 n u acc = ds ++ acc /\ Forall (fun c => 48 <= c <= 57) ds /\ ds <> [] /\ value 10 0 ds = u.
Proof.
  induction n as [|n IH]; intros u acc Hu Hn; [lia|]. cbn [dec_loop10].
  pose proof (Z.mod_pos_bound u 10 ltac:(lia)) as Hm. pose proof (Z.div_mod u 10 ltac:(lia)) as E.
  assert (Hv : dval (48 + u mod 10) = u mod 10) by (unfold dval; destruct (Z.leb_spec (48 + u mod 10) 57); lia).
  destruct (Z.eqb_spec (u / 10) 0) as [H0|H0].
  - exists [48 + u mod 10]. split; auto. split; [constructor; auto; lia|]. split; [discriminate|]. cbn [value]. rewrite Hv. lia.
  - assert (H1 : 0 <= u / 10) by (apply Z.div_pos; lia).
    assert (H2 : u / 10 < 10 ^ Z.of_nat n).
    { apply Z.div_lt_upper_bound; [lia|]. rewrite <- Z.pow_succ_r by lia. replace (Z.succ (Z.of_nat n)) with (Z.of_nat (S n)) by lia. lia. }
    destruct n as [|n]; [cbn in H2; lia|].
    destruct (IH (u / 10) (48 + u mod 10 :: acc) ltac:(lia) ltac:(lia)) as (ds & R1 & R2 & R3 & R4).
    exists (ds ++ [48 + u mod 10]). split; [rewrite <- app_assoc; exact R1|]. split; [apply Forall_app; split; auto; constructor; auto; lia|].
    split; [destruct ds; discriminate|]. rewrite value_app, R4. cbn [value]. rewrite Hv. lia.
Qed.
Lemma str10_ok u : 0 <= u < 2 ^ 31 -> Forall (fun c => 48 <= c <= 57) (str10 u) /\ str10 u <> [] /\ value 10 0 (str10 u) = u.
Proof.
  intros Hu. unfold str10. destruct (dec10_ok 10 u [] ltac:(lia) ltac:(lia)) as (ds & R1 & R2 & R3 & R4). rewrite R1, app_nil_r. auto.
Qed.

Lemma size100 : (14 <= SEGMENT_NAME_MAX_LENGTH)%nat. Proof. unfold SEGMENT_NAME_MAX_LENGTH. lia. Qed.
Lemma size99 : (14 <= SEGMENT_NAME_MAX_LENGTH - 1)%nat. Proof. unfold SEGMENT_NAME_MAX_LENGTH. lia. Qed.
#[global] Opaque SEGMENT_NAME_MAX_LENGTH.
(* splitting at a character which does not occur *)
Lemma split_at (c : Z) a b a' b' : ~ In c a -> ~ In c a' -> a ++ c :: b = a' ++ c :: b' -> a = a' /\ b = b'.
Proof.
  revert a'. induction a as [|x a IH]; intros [|x' a'] H H' E; cbn in *.
  - injection E. auto.
  - injection E as E1 E2. subst. exfalso. apply H'. auto.
  - injection E as E1 E2. subst. exfalso. apply H. auto.
  - injection E as E1 E2. subst x'. destruct (IH a') as [-> ->]; auto.
Qed.
Lemma b36_no s c : Forall b36 s -> ~ b36 c -> ~ In c s.
Proof. intros H Hc Hin. rewrite Forall_forall in H. apply Hc, H, Hin. Qed.
Lemma us_not_b36 : ~ b36 US. Proof. unfold b36, US. lia. Qed.
Lemma dot_not_b36 : ~ b36 DOT. Proof. unfold b36, DOT. lia. Qed.

Definition gen_part (k : file_kind) : list Z -> Prop := fun s =>
  match k with
  | Plain _ => s = []
  | Generation _ g | NormFile _ g _ => exists u, u64_to_str36 SEGMENT_NAME_MAX_LENGTH g = Some u /\ s = US :: u
  end.
Definition ext_part (k : file_kind) : list Z :=
  match k with Plain e => e | Generation e _ => e | NormFile sep _ num => (if sep then str "s" else str "f") ++ str10 num end.
Lemma file_name_shape c k : 0 <= c < 2 ^ 64 -> kind_ok k -> exists u g, u64_to_str36 (SEGMENT_NAME_MAX_LENGTH - 1) c = Some u /\ Forall b36 u /\
  gen_part k g /\ ~ In DOT g /\ file_name c k = Some ((US :: u) ++ g ++ DOT :: ext_part k).
Proof.
  intros Hc Hk. destruct (to36 _ c size99 Hc) as (u & R1 & R2 & R3 & R4). exists u.
  unfold file_name, new_segment. rewrite Z.mod_small by auto. rewrite R1. cbn [obind].
  destruct k as [ext|ext gen|sep gen num]; cbn [gen_part ext_part kind_ok] in *.
  - exists []. repeat split; auto.
  - destruct Hk as [He Hg]. unfold fn_for_generation. destruct (Z.eqb_spec gen (-1)); [lia|]. rewrite Z.mod_small by lia.
    destruct (to36 _ gen size100 ltac:(lia)) as (v & S1 & S2 & S3 & S4). rewrite S1. cbn [obind].
    exists (US :: v). repeat split; eauto.
    intros [H|H]; [discriminate|]. eapply b36_no; eauto using dot_not_b36.
  - destruct Hk as [Hg Hn]. unfold fn_for_gen_field. rewrite Z.mod_small by lia.
    destruct (to36 _ gen size100 ltac:(lia)) as (v & S1 & S2 & S3 & S4). rewrite S1. cbn [obind].
    exists (US :: v). repeat split; eauto.
    intros [H|H]; [discriminate|]. eapply b36_no; eauto using dot_not_b36.
Qed.
Lemma lower_no_digit e c : Forall lower e -> In c e -> 97 <= c <= 122.
Proof. intros H Hin. rewrite Forall_forall in H. apply H, Hin. Qed.
Lemma names_injective c c' k k' : 0 <= c < 2 ^ 64 -> 0 <= c' < 2 ^ 64 -> kind_ok k -> kind_ok k' ->
  file_name c k = file_name c' k' -> c = c' /\ k = k'.
Proof.
  intros Hc Hc' Hk Hk' E. destruct (file_name_shape c k Hc Hk) as (u & g & U1 & U2 & G & Gd & E1). destruct (file_name_shape c' k' Hc' Hk') as (u' & g' & U1' & U2' & G' & Gd' & E1').
  rewrite E1, E1' in E. apply some_inj in E. rewrite !app_assoc in E.
  assert (Hnd : forall v h, Forall b36 v -> ~ In DOT h -> ~ In DOT ((US :: v) ++ h)).
  { intros v h Hv Hh Hin. apply in_app_iff in Hin. destruct Hin as [[H|H]|H]; [discriminate| |auto]. eapply b36_no; eauto using dot_not_b36. }
  apply split_at in E; [|apply Hnd; auto|apply Hnd; auto]. destruct E as [EL ER]. cbn [app] in EL. injection EL as EL.
  assert (HU : u = u' /\ g = g').
  { destruct k as [e|e n|s n m]; destruct k' as [e'|e' n'|s' n' m']; cbn [gen_part] in G, G';
      repeat match goal with [ H : exists _, _ |- _ ] => destruct H as (? & ? & ?) end; subst; rewrite ?app_nil_r in *;
      try (split; [assumption|reflexivity]);
      try (apply split_at in EL; [destruct EL; subst; auto| |]; apply b36_no; auto using us_not_b36);
      exfalso;
      match goal with [ H : ?v = _ ++ US :: _, HF : Forall b36 ?v |- _ ] => apply (b36_no v US HF us_not_b36); rewrite H; apply in_app_iff; right; left; reflexivity
                    | [ H : _ ++ US :: _ = ?v, HF : Forall b36 ?v |- _ ] => apply (b36_no v US HF us_not_b36); rewrite <- H; apply in_app_iff; right; left; reflexivity end. }
  destruct HU as [<- <-]. split; [exact (to36_inj _ _ _ _ _ size99 size99 Hc Hc' U1 U1')|].
  assert (HN : forall sep num e, 0 <= num < 2 ^ 31 -> Forall lower e -> (if sep : bool then str "s" else str "f") ++ str10 num <> e).
  { intros sep num e Hn He Heq. destruct (str10_ok num Hn) as (S1 & S2 & _). destruct (str10 num) as [|d ds]; [congruence|].
    inversion S1 as [|? ? Hd Hds]; subst. assert (97 <= d <= 122); [|cbv beta in Hd; lia]. apply (lower_no_digit ((if sep then str "s" else str "f") ++ d :: ds)); auto. apply in_app_iff. right; left; auto. }
  destruct k as [e|e n|s n m]; destruct k' as [e'|e' n'|s' n' m']; cbn [gen_part ext_part kind_ok] in *;
    repeat match goal with [ H : exists _, _ |- _ ] => destruct H as (? & ? & ?) end; subst; try discriminate.
  - reflexivity.
  - match goal with [ H : US :: _ = US :: _ |- _ ] => injection H as -> end. f_equal.
    eapply (to36_inj _ _ _ _ _ size100 size100); eauto; lia.
  - exfalso. destruct Hk as [He _], Hk' as [_ Hn]. exact (HN _ _ _ Hn He eq_refl).
  - exfalso. destruct Hk as [_ Hn], Hk' as [He _]. exact (HN _ _ _ Hn He eq_refl).
  - match goal with [ H : US :: _ = US :: _ |- _ ] => injection H as -> end. destruct Hk as [Hn Hm], Hk' as [Hn' Hm'].
    assert (n = n') by (eapply (to36_inj _ _ _ _ _ size100 size100); eauto; lia). subst n'.
    assert (Hs : s = s' /\ str10 m = str10 m') by (destruct s, s'; cbn in ER; injection ER; auto; intros; discriminate).
    destruct Hs as [-> Hs]. f_equal. destruct (str10_ok m Hm) as (_ & _ & <-). destruct (str10_ok m' Hm') as (_ & _ & <-). rewrite Hs. reflexivity.
Qed.

(* the generation of a segments file *)
Lemma after_last_none c s : ~ In c s -> after_last c s = None.
Proof.
  induction s as [|x s IH]; intros H; cbn; auto. rewrite IH by (intro; apply H; right; auto). destruct (Z.eqb_spec x c); auto. subst. exfalso. apply H. left; auto.
Qed.
Lemma after_last_app c a s : ~ In c s -> after_last c (a ++ c :: s) = Some s.
Proof.
  intros H. induction a as [|x a IH]; cbn.
  - rewrite after_last_none by auto. rewrite Z.eqb_refl. reflexivity.
  - rewrite IH. reflexivity.
Qed.
Lemma beqb_refl a : beqb a a = true.
Proof. unfold beqb. destruct (list_eq_dec Z.eq_dec a a); congruence. Qed.
Lemma beqb_eq a b : beqb a b = true <-> a = b.
Proof. unfold beqb. destruct (list_eq_dec Z.eq_dec a b); split; congruence. Qed.
Lemma segfn_some g : 0 <= g < 2 ^ 63 -> exists u, segfn_for_generation g = Some (str "segments_" ++ u) /\ Forall b36 u /\ u <> [] /\ str36_to_u64 u = g.
Proof.
  intros Hg. unfold segfn_for_generation. rewrite Z.mod_small by lia.
  destruct (to36 _ g size100 ltac:(lia)) as (u & R1 & R2 & R3 & R4). exists u. rewrite R1. cbn [obind]. repeat split; auto.
  destruct (base36_roundtrip _ g size100 ltac:(lia)) as (s & E1 & E2). rewrite R1 in E1. apply some_inj in E1. subst s. exact E2.
Qed.
Lemma which_gen_segfn g fn max : 0 <= g < 2 ^ 63 -> segfn_for_generation g = Some fn -> which_gen max fn = Z.max g max.
Proof.
  intros Hg E. destruct (segfn_some g Hg) as (u & E1 & U1 & U2 & U3). rewrite E1 in E. apply some_inj in E. subst fn. unfold which_gen.
  assert (HP : prefixb (str "segments_") (str "segments_" ++ u) = true).
  { unfold prefixb. replace (firstn (length (str "segments_")) (str "segments_" ++ u)) with (str "segments_") by (rewrite firstn_app_exact; reflexivity). apply beqb_refl. }
  rewrite HP. replace (str "segments_" ++ u) with (str "segments" ++ US :: u) by reflexivity.
  rewrite after_last_app by (apply b36_no; auto using us_not_b36). rewrite U3. unfold to_signed.
  destruct (Z.ltb_spec g (2 ^ (64 - 1))); [|lia]. rewrite Z.gtb_ltb. destruct (Z.ltb_spec max g); lia.
Qed.
Lemma segfn_inj g h fn : 0 <= g < 2 ^ 63 -> 0 <= h < 2 ^ 63 -> segfn_for_generation g = Some fn -> segfn_for_generation h = Some fn -> g = h.
Proof.
  intros Hg Hh E1 E2. pose proof (which_gen_segfn g fn (-1) Hg E1). pose proof (which_gen_segfn h fn (-1) Hh E2). lia.
Qed.
