(* From the matches of a query to the strings. *)
From Coq Require Import Sorting.Permutation Sorting.Sorted.
From Verif Require Import Util Match_Model Match_Spec Match_Proofs PQueue_Model PQueue_Spec PQueue_Proofs Excerpt_Model Excerpt_Spec Excerpt_Proofs ExcerptShow_Proofs.
Open Scope Z_scope.

Lemma chain_facts n : forall l from, chain n from l -> forall i, (i < length l)%nat -> from <= st l i /\ st l i <= en l i /\ en l i <= n /\ forall j, (i < j < length l)%nat -> en l i <= st l j.
Proof.
  induction l as [|(s, e) l IH]; intros from H i Hi; [cbn in Hi; lia|]. cbn [chain] in H. destruct H as (H1 & H2 & H3). pose proof (chain_le _ _ _ H3) as H4. destruct i as [|i].
  - unfold st, en in *. cbn [nth fst snd]. splits; auto. intros j Hj. destruct j as [|j]; [lia|]. cbn [nth length] in *. destruct (IH e H3 j ltac:(lia)) as (A & _). exact A.
  - cbn [length] in Hi. destruct (IH e H3 i ltac:(lia)) as (A & B & C & D). unfold st, en in *. cbn [nth]. splits; auto; [lia|]. intros j Hj. destruct j as [|j]; [lia|]. cbn [nth length] in *. apply D. lia.
Qed.
Section TOP.
  Variable qsort : (mr -> mr -> Z) -> list mr -> list mr.
  Variable esort : (exc -> exc -> Z) -> list exc -> list exc.
  Hypothesis Hq : qsorts qsort.
  Hypothesis He : esorts esort.
  Variables (text pre post ell : list Z) (offs ms : list (Z * Z)) (L : Z).
  Hypothesis HO : offsets_ok text offs ms.
  Hypothesis HR : offsets_rise text offs.
  Hypothesis HT : forall p o, edge ms p -> nth_error offs p = Some o -> 0 < snd o.
  Hypothesis Hne : ms <> [].
  Hypothesis HL : 0 < L.
  Notation N := (Z.of_nat (length text)).
  Notation d := (mkLdf text (Z.of_nat (length text)) false).
  Variable out : list mr.
  Hypothesis HG : Good true out (map range ms).
  Notation os := (map (offset_pair offs) out).
  Notation sc := (map m_score out).
  Lemma out_ok : forall o, In o out -> 0 <= m_start o <= m_end o /\ m_end o < Z.of_nat (length offs) /\ edge ms (Z.to_nat (m_start o)) /\ edge ms (Z.to_nat (m_end o)).
  Proof. intros o Ho. destruct (out_edges text offs ms HO out HG o Ho) as (A & B & C & D). pose proof (G_proper _ _ _ HG o Ho). splits; auto; lia. Qed.
  Lemma os_chain : chain N 0 os.
  Proof.
    apply (chain_ok text offs ms HO out 0 (G_apart _ _ _ HG) out_ok ltac:(lia)). intros o Ho. destruct (out_ok o Ho) as (A & B & C & D). apply (pair_ok text offs ms HO o A B C D).
  Qed.
  Lemma sc_pos k : (k < length out)%nat -> 1 <= nth k sc 0.
  Proof.
    intros Hk. pose proof (nth_In out (mkMr 0 0 0) Hk) as Hin. rewrite (nth_indep _ 0 (m_score (mkMr 0 0 0))) by (rewrite map_length; exact Hk). rewrite map_nth. set (o := nth k out _) in *. rewrite (G_score _ _ _ HG eq_refl o Hin).
    destruct (G_edge _ _ _ HG o Hin) as ((a & Ha & Ea) & _). destruct (G_in _ _ _ HG a Ha) as (o2 & Ho2 & B1 & B2).
    assert (Hpa : m_start a <= m_end a) by (apply (G_pd _ _ _ HG); exact Ha).
    assert (o2 = o). { pose proof (G_proper _ _ _ HG o Hin) as P1. pose proof (G_proper _ _ _ HG o2 Ho2) as P2. apply In_nth_error in Hin, Ho2. destruct Hin as (x & Hx), Ho2 as (y & Hy). destruct (Nat.lt_trichotomy x y) as [D|[D|D]].
      - pose proof (sorted_nth _ _ _ _ _ _ (G_apart _ _ _ HG) D Hx Hy) as K. cbn beta iota zeta in K. lia.
      - congruence.
      - pose proof (sorted_nth _ _ _ _ _ _ (G_apart _ _ _ HG) D Hy Hx) as K. cbn beta iota zeta in K. lia. }
    subst o2. assert (Hf : In a (filter (within o) (map range ms))) by (apply filter_In; split; [exact Ha|]; unfold within; apply andb_true_intro; split; apply Z.leb_le; assumption).
    assert (HP : forall m, In m (filter (within o) (map range ms)) -> m_score m = 1) by (intros m Hm; apply filter_In in Hm; destruct Hm as (Hm & _); apply in_map_iff in Hm; destruct Hm as (z & <- & _); reflexivity).
    clear -Hf HP. revert Hf HP. generalize (filter (within o) (map range ms)). induction l as [|b l IH]; intros Hf HP; [contradiction|]. unfold total in *. cbn [fold_right]. rewrite (HP b) by (left; reflexivity). assert (0 <= fold_right (fun m n => m_score m + n) 0 l); [|lia]. clear -HP. assert (HP2 : forall m, In m l -> m_score m = 1) by (intros; apply HP; right; assumption). clear HP. induction l as [|c l IH]; cbn [fold_right]; [lia|]. rewrite (HP2 c) by (left; reflexivity). specialize (IH (fun m Hm => HP2 m (or_intror Hm))). lia.
  Qed.
  Lemma sc_nonneg k : 0 <= nth k sc 0.
  Proof. destruct (Nat.ltb_spec k (length out)) as [H|H]; [pose proof (sc_pos k H); lia|]. rewrite nth_overflow; [lia|]. rewrite map_length. exact H. Qed.
  Lemma len_os : length os = length out. Proof. apply map_length. Qed.
  Lemma Hse : forall i, (i < length os)%nat -> st os i <= en os i.
  Proof. intros i Hi. apply (chain_facts _ _ _ os_chain i Hi). Qed.
  Lemma Hes : forall i j, (i < j < length os)%nat -> en os i <= st os j.
  Proof. intros i j Hi. apply (chain_facts _ _ _ os_chain i ltac:(lia)). lia. Qed.
  Lemma Hst : forall i j, (i <= j < length os)%nat -> st os i <= st os j.
  Proof. intros i j Hi. destruct (Nat.eq_dec i j) as [->|]; [lia|]. pose proof (Hse i ltac:(lia)). pose proof (Hes i j ltac:(lia)). lia. Qed.
  Lemma Hen : forall i j, (i <= j < length os)%nat -> en os i <= en os j.
  Proof. intros i j Hi. destruct (Nat.eq_dec i j) as [->|]; [lia|]. pose proof (Hse j ltac:(lia)). pose proof (Hes i j ltac:(lia)). lia. Qed.
  Hypothesis Hfit : forall i, (i < length os)%nat -> en os i <= st os i + L.
  Lemma fits_ex i : (i < length os)%nat -> exists j, fits L os i j.
  Proof. intros Hi. destruct (excerpts_ok L os Hst Hfit i Hi) as (j & _ & HF & _). exists j. exact HF. Qed.
  Lemma fits_mono i i2 j j2 : fits L os i j -> fits L os i2 j2 -> (i <= i2)%nat -> (j <= j2)%nat.
  Proof.
    intros (A1 & A2 & A3 & A4) (B1 & B2 & B3 & B4) Hi. destruct (Nat.leb_spec j j2) as [D|D]; [exact D|]. specialize (B4 ltac:(lia)). specialize (A3 j ltac:(lia)). pose proof (Hst i i2 ltac:(lia)). pose proof (Hen (S j2) j ltac:(lia)). unfold st, en in *. lia.
  Qed.
  (* ---------- positions *)
  Notation ok := (ok text offs os).
  Definition placed (x : exc) (e : exc) : Prop := x_start e = x_start x /\ x_end e = x_end x /\ ok e /\ x_eoff e - x_soff e <= L /\ x_spos e < Z.of_nat (length offs) /\ x_soff e = st os (si e) /\ x_eoff e = en os (sz e - 1).
  Lemma nth_os i : (i < length out)%nat -> nth i os (0, 0) = offset_pair offs (nth i out (mkMr 0 0 0)).
  Proof. intros H. apply nth_error_nth. rewrite nth_error_map, (nth_error_nth' _ (mkMr 0 0 0)) by exact H. reflexivity. Qed.
  Lemma place_ok x w : same_w L os x w -> exists e, place offs out x = Some e /\ placed x e.
  Proof.
    intros (E1 & E2 & HF). destruct w as (i, j). cbn [fst snd] in *. pose proof HF as (F1 & F2 & F3 & F4). pose proof len_os as Hl. rewrite Hl in F2. unfold place, znth. rewrite E1, E2. rewrite !(proj2 (Z.ltb_ge (Z.of_nat _) 0)) by lia. rewrite !Nat2Z.id.
    set (a := nth i out (mkMr 0 0 0)). set (b := nth j out (mkMr 0 0 0)). rewrite (nth_error_nth' out (mkMr 0 0 0)) by lia. cbn [obind]. fold a. rewrite (nth_error_nth' out (mkMr 0 0 0)) by lia. cbn [obind]. fold b.
    assert (Hi : (i < length out)%nat) by lia. destruct (out_ok a (nth_In out _ Hi)) as (A1 & A2 & A3 & A4). destruct (out_ok b (nth_In out _ F2)) as (B1 & B2 & B3 & B4).
    rewrite !(proj2 (Z.ltb_ge _ 0)) by lia. assert (Na : nth_error offs (Z.to_nat (m_start a)) = Some (nth (Z.to_nat (m_start a)) offs (0, 0))) by (apply nth_error_nth'; lia). assert (Nb : nth_error offs (Z.to_nat (m_end b)) = Some (nth (Z.to_nat (m_end b)) offs (0, 0))) by (apply nth_error_nth'; lia).
    rewrite Na. cbn [obind]. rewrite Nb. cbn [obind]. eexists. split; [reflexivity|]. set (oa := nth (Z.to_nat (m_start a)) offs (0, 0)) in *. set (ob := nth (Z.to_nat (m_end b)) offs (0, 0)) in *.
    assert (Ei : st os i = fst oa) by (unfold st; rewrite nth_os by lia; reflexivity). assert (Ej : en os j = snd ob) by (unfold en; rewrite nth_os by lia; reflexivity).
    destruct (fill_ok text offs HR) as (K1 & K2 & K3). pose proof (HT _ _ A3 Na) as Ta. pose proof (HT _ _ B4 Nb) as Tb.
    assert (Fa : nth_error (fill offs) (Z.to_nat (m_start a)) = Some oa) by (apply K3; [exact Na|]; destruct oa; cbn [snd] in *; intros X; injection X; lia). assert (Fb : nth_error (fill offs) (Z.to_nat (m_end b)) = Some ob) by (apply K3; [exact Nb|]; destruct ob; cbn [snd] in *; intros X; injection X; lia).
    pose proof (chain_facts _ _ _ os_chain i ltac:(lia)) as (C1 & C2 & C3 & _). pose proof (chain_facts _ _ _ os_chain j ltac:(lia)) as (D1 & D2 & D3 & _). pose proof (Hst i j ltac:(lia)) as Hij. specialize (F3 j ltac:(lia)). fold (en os j) in F3. fold (st os i) in F3.
    unfold placed, si, sz. cbn [x_start x_end x_spos x_epos x_soff x_eoff]. rewrite E1, E2. rewrite Nat2Z.id. replace (Z.to_nat (Z.of_nat j + 1)) with (S j) by lia. replace (S j - 1)%nat with j by lia. splits; auto; try lia.
    split; unfold si, sz; cbn [x_start x_end x_spos x_epos x_soff x_eoff]; rewrite ?E1, ?E2, ?Nat2Z.id; replace (Z.to_nat (Z.of_nat j + 1)) with (S j) by lia; try lia.
    - intros _. exists oa. auto.
    - intros o Ho. assert (o = ob) by congruence. subst o. lia.
    - intros k Hk. rewrite <- Ei. apply Hst. lia.
    - intros k Hk. rewrite <- Ej. apply Hen. lia.
  Qed.
  Lemma place_all_ok : forall ch ws, Forall2 (same_w L os) ch ws -> exists es, place_all offs out ch = Some es /\ Forall2 placed ch es.
  Proof. induction 1 as [|x w ch ws H1 H2 IH]; cbn [place_all]; [exists []; split; constructor|]. destruct (place_ok x w H1) as (e & E & P). destruct IH as (es & E2 & P2). rewrite E. cbn [obind]. rewrite E2. cbn [obind]. eexists. split; [reflexivity|constructor; assumption]. Qed.
  Lemma filler_ok : ok filler.
  Proof.
    destruct (fill_ok text offs HR) as (K1 & K2 & K3). split; unfold si, sz; cbn [filler x_start x_end x_spos x_epos x_soff x_eoff]; cbn; try lia.
    - intros o Ho. pose proof (K1 0%nat o Ho) as (X & Y). lia.
    - intros k Hk. apply (chain_facts _ _ _ os_chain k ltac:(lia)).
  Qed.
  Lemma Forall2_perm {A B} (R : A -> B -> Prop) : forall l l2, Permutation l l2 -> forall m, Forall2 R l m -> exists m2, Permutation m m2 /\ Forall2 R l2 m2.
  Proof.
    induction 1 as [|x l l2 HP IH|x y l|l l2 l3 H1 IH1 H2 IH2]; intros m HF.
    - inversion HF; subst. exists []. split; constructor.
    - inversion HF as [|? b ? m1 R1 R2]; subst. destruct (IH m1 R2) as (m2 & P & Q). exists (b :: m2). split; constructor; assumption.
    - inversion HF as [|? b ? m1 R1 R2]; subst. inversion R2 as [|? c ? m3 R3 R4]; subst. exists (c :: b :: m3). split; [apply perm_swap|]. constructor; [exact R3|]. constructor; assumption.
    - destruct (IH1 m HF) as (m2 & P & Q). destruct (IH2 m2 Q) as (m3 & P2 & Q2). exists m3. split; [etransitivity; eassumption|exact Q2].
  Qed.
  Lemma F2_in {A B} (R : A -> B -> Prop) l m : Forall2 R l m -> forall b, In b m -> exists a, In a l /\ R a b.
  Proof. induction 1 as [|x y l m H1 H2 IH]; intros b Hb; [contradiction|]. destruct Hb as [<-|Hb]; [exists x; split; [left; reflexivity|exact H1]|]. destruct (IH b Hb) as (a & A1 & A2). exists a. split; [right|]; assumption. Qed.
  Lemma F2_in1 {A B} (R : A -> B -> Prop) l m : Forall2 R l m -> forall a, In a l -> exists b, In b m /\ R a b.
  Proof. induction 1 as [|x y l m H1 H2 IH]; intros b Hb; [contradiction|]. destruct Hb as [<-|Hb]; [exists y; split; [left; reflexivity|exact H1]|]. destruct (IH b Hb) as (a & A1 & A2). exists a. split; [right|]; assumption. Qed.
  Lemma F2_len {A B} (R : A -> B -> Prop) l m : Forall2 R l m -> length l = length m.
  Proof. induction 1; cbn [length]; congruence. Qed.
  Lemma excerpts_ok num w : compact qsort true (vec_of ms) = Some w -> v_list w = Some out ->
    exists ps ws, excerpts qsort esort (vec_of ms) d offs L num pre post ell = Some (map (shown text pre post ell os) ps) /\ (length ps <= num)%nat /\ StronglySorted apart_p ps /\ Forall (sound text os) ps /\ lengths ps <= Z.of_nat num * L /\
      greedy L os sc [] ws /\ length ws = Nat.min num (length out) /\ (forall x, In x ws -> exists p, In p ps /\ contains p x) /\
      (num = 1%nat -> forall p, In p ps -> exists x, ws = [x] /\ p_first p = fst x /\ p_next p = S (snd x)).
  Proof.
    intros E1 E2. unfold excerpts. rewrite E1. cbn [obind]. rewrite E2. cbn [obind]. rewrite (set_all_ok offs out) by (intros o Ho; destruct (out_ok o Ho) as (A & B & _); auto). cbn [obind].
    pose proof len_os as Hl. assert (Hls : length sc = length os) by (rewrite !map_length; reflexivity).
    destruct (cands_ok L os sc Hls Hst Hfit (length os) 0 0 ltac:(lia) ltac:(lia) ltac:(intros; lia)) as (cs & C1 & C2 & C3). change (win sc 0 (0 - 0)) with 0 in C1. rewrite Hl in C1. rewrite C1. cbn [obind].
    destruct (chosen L os sc Hls Hst Hen sc_nonneg fits_ex cs num C2 C3) as (q & ch & ws & D1 & D2 & D3 & D4 & D5 & D6). rewrite Hl in D1. rewrite D1. cbn [obind]. rewrite D2. cbn [obind].
    destruct (He start_cmp) with (l := ch) as (P1 & P2); [intros a b; unfold start_cmp; lia|intros a b c; unfold start_cmp; lia|]. set (ch2 := esort start_cmp ch) in *.
    destruct (Forall2_perm _ _ _ P1 _ D3) as (ws2 & W1 & W2). destruct (place_all_ok ch2 ws2 W2) as (es & S1 & S2). rewrite S1. cbn [obind].
    pose proof (F2_len _ _ _ S2) as Les. pose proof (Permutation_length P1) as Lch.
    set (all := repeat filler (num - length es) ++ es). assert (Hall : length all = num) by (unfold all; rewrite app_length, repeat_length; lia).
    assert (Hes2 : forall e, In e es -> exists x y, In x ch2 /\ In y ws2 /\ same_w L os x y /\ placed x e).
    { intros e Hin. destruct (F2_in _ _ _ S2 e Hin) as (x & X1 & X2). destruct (F2_in1 _ _ _ W2 x X1) as (y & Y1 & Y2). exists x, y. auto. }
    assert (Hin : forall e, In e all -> e = filler \/ In e es) by (intros e H; unfold all in H; apply in_app_or in H; destruct H as [H|H]; [left; apply repeat_spec in H; exact H|right; exact H]).
    destruct (fill_ok text offs HR) as (K1 & K2 & K3).
    destruct (emit_ok text pre post ell offs os L HL K1 K2 Hse Hes offs eq_refl eq_refl num all (- Z.of_nat num * L)) as (ps & R1 & R2 & R3 & R4 & R5 & R6 & R7 & R8).
    - lia.
    - apply Forall_forall. intros e H. apply Hin in H. destruct H as [->|H]; [apply filler_ok|]. destruct (Hes2 e H) as (x & y & _ & _ & _ & P). apply P.
    - assert (SE : StronglySorted le_e es).
      { assert (ND : NoDup (map x_start ch2)) by (apply (Permutation_NoDup (Permutation_map x_start P1) D4)). clear - S2 W2 P2 ND HG HO Hfit HR HT. clearbody ch2. revert ws2 W2 P2 ND. induction S2 as [|x e ch2 es Q1 Q2 IH]; intros ws2 W2 P2 ND; constructor.
        - inversion W2; subst. inversion P2; subst. cbn [map] in ND. inversion ND; subst. eapply IH; eassumption.
        - inversion W2 as [|? w1 ? ws3 V1 V2]; subst. inversion P2 as [|? ? U1 U2]; subst. apply Forall_forall. intros e2 He2. destruct (F2_in _ _ _ Q2 e2 He2) as (x2 & X1 & X2). destruct (F2_in1 _ _ _ V2 x2 X1) as (y2 & Y1 & Y2). rewrite Forall_forall in U2. specialize (U2 x2 X1). unfold start_cmp in U2.
          destruct V1 as (V11 & V12 & V13), Y2 as (Y21 & Y22 & Y23). destruct Q1 as (T1 & T2 & T3 & T4 & T5 & T6 & T7), X2 as (Z1 & Z2 & Z3 & Z4 & Z5 & Z6 & Z7). pose proof (fits_mono _ _ _ _ V13 Y23 ltac:(lia)) as HM. destruct Y23 as (G1 & G2 & _). destruct V13 as (I1 & I2 & _).
          assert (Es : si e = fst w1 /\ si e2 = fst y2 /\ sz e = S (snd w1) /\ sz e2 = S (snd y2)) by (unfold si, sz; rewrite T1, T2, Z1, Z2, V11, V12, Y21, Y22; lia). destruct Es as (s1 & s2 & s3 & s4). unfold le_e. rewrite T6, T7, Z6, Z7, s1, s2, s3, s4. splits; try lia; [apply Hst; lia|]. replace (S (snd w1) - 1)%nat with (snd w1) by lia. replace (S (snd y2) - 1)%nat with (snd y2) by lia. apply Hen. lia. }
      unfold all. clear Hall Hin. subst all. generalize (num - length es)%nat. intros r0. induction r0 as [|r IHr]; cbn [repeat app]; [exact SE|]. constructor; [exact IHr|]. apply Forall_forall. intros e H. apply in_app_or in H. unfold le_e, si, sz. cbn [filler x_start x_end x_soff x_eoff]. destruct H as [H|H]; [apply repeat_spec in H; subst e; cbn; lia|]. destruct (Hes2 e H) as (x & y & _ & _ & _ & (_ & _ & [O1 O2 O3 O4 O5 _ _ _ _ _ _] & _)). cbn. lia.
    - apply Forall_forall. intros e H. apply Hin in H. destruct H as [->|H]; [right; reflexivity|]. left. destruct (Hes2 e H) as (x & y & _ & _ & _ & P). apply P.
    - apply Forall_forall. intros e H. apply Hin in H. destruct H as [->|H]; [cbn; lia|]. destruct (Hes2 e H) as (x & y & _ & _ & _ & P). apply P.
    - intros i e H. assert ((i < num)%nat) by (rewrite <- Hall; apply nth_error_Some; congruence). apply nth_error_In in H. apply Hin in H. assert (0 <= x_eoff e); [|nia]. destruct H as [->|H]; [cbn; lia|]. destruct (Hes2 e H) as (x & y & _ & _ & _ & (_ & _ & [O1 O2 O3 O4 O5 _ _ _ _ _ _] & _)). lia.
    - exists ps, ws. splits.
      + exact R1.
      + lia.
      + exact R3.
      + exact R4.
      + rewrite Hall in R6. exact R6.
      + exact D5.
      + rewrite <- (F2_len _ _ _ D3), D6, Hl. reflexivity.
      + intros y Hy. apply (Permutation_in _ W1) in Hy. destruct (F2_in _ _ _ W2 y Hy) as (x & X1 & (X2 & X3 & X4)). destruct (F2_in1 _ _ _ S2 x X1) as (e & Q1 & Q2). destruct (R7 e) as (p & T1 & T2); [unfold all; apply in_or_app; right; exact Q1|]. exists p. split; [exact T1|]. destruct Q2 as (Q21 & Q22 & _). destruct T2 as (_ & _ & T3 & T4). unfold contains. unfold si, sz in *. rewrite Q21, Q22, X2, X3 in *. lia.
      + intros -> p Hp. destruct (R8 p Hp) as (a & b & A1 & A2 & A3 & A4). pose proof HG as HG2. assert (Hout : (1 <= length out)%nat). { destruct out as [|o l] eqn:Eo; [|cbn; lia]. exfalso. destruct ms as [|m t]; [congruence|]. destruct (G_in _ _ _ HG2 (range m) (or_introl eq_refl)) as (o & [] & _). }
        assert (L1 : length es = 1%nat) by lia. assert (Eall : all = es) by (unfold all; rewrite L1; reflexivity). rewrite Eall in A1, A2. destruct es as [|e [|e2 es]]; try discriminate. destruct A1 as [<-|[]], A2 as [<-|[]]. destruct (Hes2 e (or_introl eq_refl)) as (x & y & X1 & Y1 & (V1 & V2 & _) & (Q1 & Q2 & _)).
        pose proof (F2_len _ _ _ W2) as Lw. pose proof (Permutation_length W1) as Lw2. destruct ws2 as [|y2 [|]]; cbn [length] in *; try lia. destruct Y1 as [<-|[]]. apply Permutation_sym, Permutation_length_1_inv in W1. exists y2. splits; [exact W1| |]; unfold si, sz in *; rewrite ?A3, ?A4, ?Q1, ?Q2, ?V1, ?V2; lia.
  Qed.
End TOP.
