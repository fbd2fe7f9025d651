From Verif Require Import Util Hash_Model Hash_Spec.
From Coq Require Import Sorting.Permutation ZArith.Znumtheory ZArith.Zpow_facts.
Open Scope nat_scope.

(* ------------------------------------------------------------ the probe sequence visits every slot *)
(* a d = (5^d - 1) / 4 *)
Fixpoint geo (d : nat) : Z := match d with O => 0 | S d' => 5 * geo d' + 1 end%Z.
Lemma geo_add a b : (geo (a + b) = geo a + (4 * geo a + 1) * geo b)%Z.
Proof. induction a as [|a IH]; cbn [geo Nat.add]; [lia|]. rewrite IH. ring. Qed.
Lemma geo_double d : (geo (2 * d) = 2 * (geo d * (2 * geo d + 1)))%Z.
Proof. replace (2 * d) with (d + d) by lia. rewrite geo_add. ring. Qed.
Lemma geo_parity d : Z.even (geo d) = Nat.even d.
Proof.
  induction d as [|d IH]; [reflexivity|]. cbn [geo]. rewrite Z.even_add, Z.even_mul, IH, Nat.even_succ.
  cbn [Z.even orb]. rewrite <- Nat.negb_even. destruct (Nat.even d); reflexivity.
Qed.
Lemma pow2_odd_div k a b : (2 ^ Z.of_nat k | a * (2 * b + 1))%Z -> (2 ^ Z.of_nat k | a)%Z.
Proof.
  intros H. apply Gauss with (2 * b + 1)%Z; [rewrite Z.mul_comm; exact H|].
  apply rel_prime_sym, rel_prime_Zpower_r; [lia|].
  apply Zgcd_1_rel_prime. rewrite Z.gcd_comm.
  replace (2 * b + 1)%Z with (1 + b * 2)%Z by ring. rewrite Z.gcd_add_mult_diag_r. reflexivity.
Qed.
Lemma geo_div k : forall d, (2 ^ Z.of_nat k | geo d)%Z -> (2 ^ Z.of_nat k | Z.of_nat d)%Z.
Proof.
  induction k as [|k IH]; intros d H.
  - exists (Z.of_nat d). cbn. lia.
  - rewrite Nat2Z.inj_succ, Z.pow_succ_r in * by lia.
    assert (Hev : Nat.even d = true).
    { rewrite <- geo_parity. destruct H as (q & ->). rewrite Z.mul_assoc, (Z.mul_comm q 2), <- Z.mul_assoc, Z.even_mul. reflexivity. }
    apply Nat.even_spec in Hev. destruct Hev as (e & ->). rewrite geo_double in H.
    assert (Hk : (2 ^ Z.of_nat k | geo e)%Z).
    { apply pow2_odd_div with (geo e). apply Z.mul_divide_cancel_l with 2%Z; [lia|exact H]. }
    apply IH in Hk. rewrite Nat2Z.inj_mul. apply Z.mul_divide_mono_l. exact Hk.
Qed.

(* positions and perturb values after t steps *)
Fixpoint pos_at (n : nat) (i : nat) (p : Z) (t : nat) : nat :=
  match t with O => i | S t' => pos_at n (probe_next n i p) (p / 32)%Z t' end.
Definition pseq (n : nat) (h : Z) (t : nat) : nat := pos_at n (start n h) h t.

Lemma probe_next_lt n i p : 0 < n -> probe_next n i p < n.
Proof.
  intros H. unfold probe_next. pose proof (Z.mod_pos_bound (5 * Z.of_nat i + p + 1) (Z.of_nat n) ltac:(lia)). lia.
Qed.
Lemma start_lt n h : 0 < n -> start n h < n.
Proof. intros H. unfold start. pose proof (Z.mod_pos_bound h (Z.of_nat n) ltac:(lia)). lia. Qed.
Lemma pos_at_lt n t : forall i p, 0 < n -> i < n -> pos_at n i p t < n.
Proof. induction t as [|t IH]; intros i p Hn Hi; cbn [pos_at]; auto. apply IH; auto. apply probe_next_lt; auto. Qed.
Lemma pseq_lt n h t : 0 < n -> pseq n h t < n.
Proof. intros H. apply pos_at_lt; auto. apply start_lt; auto. Qed.
Fixpoint pert (p : Z) (t : nat) : Z := match t with O => p | S t' => pert (p / 32) t' end.
Lemma pos_at_add n a b : forall i p, pos_at n i p (a + b) = pos_at n (pos_at n i p a) (pert p a) b.
Proof. induction a as [|a IH]; intros i p; cbn [pos_at pert Nat.add]; auto. Qed.
Lemma pert_div t : forall p, (0 <= p)%Z -> pert p t = (p / 32 ^ Z.of_nat t)%Z.
Proof.
  induction t as [|t IH]; intros p Hp; cbn [pert].
  - rewrite Z.div_1_r. reflexivity.
  - rewrite IH by (apply Z.div_pos; lia). rewrite Nat2Z.inj_succ, Z.pow_succ_r by lia.
    rewrite Z.div_div by (try lia; apply Z.pow_pos_nonneg; lia). reflexivity.
Qed.
Lemma pert_13 h : (0 <= h < 2 ^ 64)%Z -> pert h 13 = 0%Z.
Proof.
  intros H. rewrite pert_div by lia. apply Z.div_small. split; [lia|].
  apply Z.lt_trans with (2 ^ 64)%Z; [lia|reflexivity].
Qed.
Lemma pos_at_0 n d : forall i, 0 < n -> i < n ->
  Z.of_nat (pos_at n i 0 d) = ((Z.of_nat i + geo d * (4 * Z.of_nat i + 1)) mod Z.of_nat n)%Z.
Proof.
  induction d as [|d IH]; intros i Hn Hi; cbn [pos_at geo].
  - rewrite Z.mul_0_l, Z.add_0_r, Z.mod_small by lia. reflexivity.
  - change (0 / 32)%Z with 0%Z. rewrite IH by (auto; apply probe_next_lt; auto).
    unfold probe_next. rewrite Z2Nat.id by (apply Z.mod_pos_bound; lia).
    set (N := Z.of_nat n). set (x := (5 * Z.of_nat i + 0 + 1)%Z).
    replace (x mod N + geo d * (4 * (x mod N) + 1))%Z with ((1 + 4 * geo d) * (x mod N) + geo d)%Z by ring.
    rewrite Z.add_mod, Z.mul_mod, Z.mod_mod, <- Z.mul_mod, <- Z.add_mod by lia.
    f_equal. subst x. ring.
Qed.
Lemma pos_at_0_inj k i a b : i < 2 ^ k -> a < b < 2 ^ k ->
  pos_at (2 ^ k) i 0 a <> pos_at (2 ^ k) i 0 b.
Proof.
  intros Hi Hab E. assert (Hn : 0 < 2 ^ k) by lia.
  assert (Hpz : Z.of_nat (2 ^ k) = (2 ^ Z.of_nat k)%Z) by apply Nat2Z.inj_pow.
  replace b with (a + (b - a)) in E by lia. rewrite pos_at_add in E.
  replace (pert 0 a) with 0%Z in E. 2:{ clear; induction a; cbn; auto. }
  set (x := pos_at (2 ^ k) i 0 a) in *. assert (Hx : x < 2 ^ k) by (apply pos_at_lt; auto).
  apply (f_equal Z.of_nat) in E. rewrite pos_at_0 in E by auto.
  rewrite <- (Z.mod_small (Z.of_nat x) (Z.of_nat (2 ^ k))) in E at 1 by lia.
  symmetry in E.
  assert (Hd : (2 ^ Z.of_nat k | geo (b - a) * (2 * (2 * Z.of_nat x) + 1))%Z).
  { rewrite <- Hpz. apply Z.mod_divide; [lia|].
    replace (geo (b - a) * (2 * (2 * Z.of_nat x) + 1))%Z
      with ((Z.of_nat x + geo (b - a) * (4 * Z.of_nat x + 1)) - Z.of_nat x)%Z by ring.
    rewrite Zminus_mod, E. rewrite Z.sub_diag. apply Z.mod_0_l. lia. }
  apply pow2_odd_div in Hd. apply geo_div in Hd.
  apply Z.divide_pos_le in Hd; lia.
Qed.

Lemma covers k i j : i < 2 ^ k -> j < 2 ^ k -> exists d, d < 2 ^ k /\ pos_at (2 ^ k) i 0 d = j.
Proof.
  intros Hi Hj. assert (Hn : 0 < 2 ^ k) by lia.
  set (l := map (pos_at (2 ^ k) i 0) (seq 0 (2 ^ k))).
  assert (Hnd : NoDup l).
  { apply NoDup_nth with (d := 0). intros a b Ha Hb E. unfold l in *. rewrite map_length, seq_length in Ha, Hb.
    rewrite !(nth_indep _ 0 (pos_at (2 ^ k) i 0 0)) in E by (rewrite map_length, seq_length; auto).
    rewrite !map_nth, !seq_nth in E by auto. cbn [Nat.add] in E.
    destruct (Nat.lt_trichotomy a b) as [H|[H|H]]; auto; exfalso.
    - apply (pos_at_0_inj k i a b); auto.
    - apply (pos_at_0_inj k i b a); auto. }
  assert (Hin : In j l).
  { assert (Hincl : incl (seq 0 (2 ^ k)) l).
    { apply NoDup_length_incl; auto.
      - unfold l. rewrite map_length. auto.
      - intros x Hx. unfold l in Hx. apply in_map_iff in Hx. destruct Hx as (d & <- & _). apply in_seq.
        pose proof (pos_at_lt (2 ^ k) d i 0 Hn Hi). lia. }
    apply Hincl. apply in_seq. lia. }
  unfold l in Hin. apply in_map_iff in Hin. destruct Hin as (d & E & Hd). apply in_seq in Hd. exists d. split; [lia|auto].
Qed.
Lemma pseq_covers_gen c k h j : pert h c = 0%Z -> j < 2 ^ k ->
  exists t, t < c + 2 ^ k /\ pseq (2 ^ k) h t = j.
Proof.
  intros Hh Hj. assert (Hn : 0 < 2 ^ k) by lia.
  destruct (covers k (pseq (2 ^ k) h c) j) as (d & Hd & E); auto.
  { apply pseq_lt; auto. }
  exists (c + d). split; [lia|]. unfold pseq in *. rewrite pos_at_add, Hh. exact E.
Qed.
Lemma pseq_covers k h j : (0 <= h < 2 ^ 64)%Z -> j < 2 ^ k ->
  exists t, t < 13 + 2 ^ k /\ pseq (2 ^ k) h t = j.
Proof. intros Hh Hj. apply pseq_covers_gen; auto. apply pert_13; auto. Qed.

(* ------------------------------------------------------------ tables *)
Section Inv.
  Variables K V : Type.
  Variable hash : K -> Z.
  Variables eqb same : K -> K -> bool.
  Variable by_ptr : bool.
  Hypothesis hash_range : forall k, (0 <= hash k < 2 ^ 64)%Z.
  Hypothesis eqb_refl : forall k, eqb k k = true.
  Hypothesis eqb_sym : forall a b, eqb a b = eqb b a.
  Hypothesis eqb_trans : forall a b c, eqb a b = true -> eqb b c = true -> eqb a c = true.
  Hypothesis eqb_hash : forall a b, eqb a b = true -> hash a = hash b.
  Hypothesis same_eqb : forall a b, same a b = true -> eqb a b = true.
  Hypothesis ptr_hash : by_ptr = true -> forall a b, hash a = hash b -> eqb a b = true.
  Notation slot := (slot K V).
  Notation mt := (matches K V hash eqb same by_ptr).
  Notation look := (lookup K V hash eqb same by_ptr).
  Notation null := (null_slot K V).

  Definition is_null (s : slot) : bool := match s_key s with SNull => true | _ => false end.
  Definition act (s : slot) : list (K * V) :=
    match s_key s, s_val s with SKey k, Some v => [(k, v)] | _, _ => [] end.
  Definition actives (tbl : list slot) : list (K * V) := flat_map act tbl.
  Definition filled (tbl : list slot) : nat := length (filter (fun s => negb (is_null s)) tbl).

  (* slot q is where a search for k arrives *)
  Definition path (tbl : list slot) (k : K) (q : nat) : Prop :=
    exists t, pseq (length tbl) (hash k) t = q /\
      forall t' s, t' < t -> nth_error tbl (pseq (length tbl) (hash k) t') = Some s -> is_null s = false /\ mt k s = false.
  Definition pairwise (l : list (K * V)) : Prop := ForallOrdPairs (fun a b => eqb (fst a) (fst b) = false) l.
  Definition slot_ok (s : slot) : Prop :=
    match s_key s with SKey k => s_hash s = hash k /\ s_val s <> None | _ => s_val s = None end.
  Record TInv (tbl : list slot) : Prop := {
    ti_len : exists e, 3 <= e /\ length tbl = 2 ^ e;
    ti_slots : Forall slot_ok tbl;
    ti_path : forall q s k, nth_error tbl q = Some s -> s_key s = SKey k -> path tbl k q;
    ti_dist : pairwise (actives tbl) }.
  Definition HInv (h : hasht K V) (m : amap K V) : Prop :=
    TInv (h_tbl h) /\ h_fill h = filled (h_tbl h) /\ filled (h_tbl h) < length (h_tbl h) /\
    h_size h = length m /\ Permutation (actives (h_tbl h)) m.

  Lemma nth_error_split_list {A} (l : list A) p s : nth_error l p = Some s -> exists l1 l2, l = l1 ++ s :: l2 /\ length l1 = p.
  Proof. apply nth_error_split. Qed.
  Lemma upd_mid {A} (l1 : list A) s l2 s' : upd (l1 ++ s :: l2) (length l1) s' = l1 ++ s' :: l2.
  Proof. induction l1 as [|x l1 IH]; cbn; auto. f_equal. exact IH. Qed.
  Lemma actives_upd tbl p s s' : nth_error tbl p = Some s -> exists l1 l2,
    actives tbl = l1 ++ act s ++ l2 /\ actives (upd tbl p s') = l1 ++ act s' ++ l2.
  Proof.
    intros H. apply nth_error_split in H. destruct H as (l1 & l2 & -> & <-).
    rewrite upd_mid. exists (actives l1), (actives l2). unfold actives. rewrite !flat_map_app. split; reflexivity.
  Qed.
  Lemma filled_upd tbl p s s' : nth_error tbl p = Some s ->
    filled (upd tbl p s') + (if is_null s then 0 else 1) = filled tbl + (if is_null s' then 0 else 1).
  Proof.
    intros H. apply nth_error_split in H. destruct H as (l1 & l2 & -> & <-). rewrite upd_mid. unfold filled.
    rewrite !filter_app, !app_length. cbn [filter]. destruct (is_null s), (is_null s'); cbn [negb length]; lia.
  Qed.
  Lemma exists_null tbl : filled tbl < length tbl -> exists j s, nth_error tbl j = Some s /\ is_null s = true.
  Proof.
    unfold filled. induction tbl as [|s tbl IH]; cbn [filter length]; [lia|]. destruct (is_null s) eqn:E; cbn [negb].
    - intros _. exists 0, s. auto.
    - cbn [length]. intros H. destruct IH as (j & s' & H1 & H2); [lia|]. exists (S j), s'. auto.
  Qed.

  Lemma pairwise_perm l l' : Permutation l l' -> pairwise l -> pairwise l'.
  Proof.
    unfold pairwise. induction 1 as [|x l l' HP IH|x y l|l l' l'' H1 IH1 H2 IH2]; intros H; auto.
    - inversion H; subst. constructor; auto. rewrite Forall_forall in *. intros z Hz. apply H2.
      apply Permutation_sym in HP. eapply Permutation_in; eauto.
    - inversion H as [|? ? Hy H']; subst. inversion H' as [|? ? Hx H'']; subst. inversion Hy; subst.
      constructor; [constructor; [rewrite eqb_sym; auto|auto]|]. constructor; auto.
  Qed.
  Lemma in_actives tbl q s k v : nth_error tbl q = Some s -> s_key s = SKey k -> s_val s = Some v -> In (k, v) (actives tbl).
  Proof.
    intros H Hk Hv. unfold actives. apply in_flat_map. exists s. split; [eapply nth_error_In; eauto|].
    unfold act. rewrite Hk, Hv. left; reflexivity.
  Qed.
  Lemma actives_in tbl k v : In (k, v) (actives tbl) -> exists q s, nth_error tbl q = Some s /\ s_key s = SKey k /\ s_val s = Some v.
  Proof.
    unfold actives. intros H. apply in_flat_map in H. destruct H as (s & Hs & H). apply In_nth_error in Hs.
    destruct Hs as (q & Hq). exists q, s. split; auto. unfold act in H. destruct (s_key s); try contradiction.
    destruct (s_val s); try contradiction. destruct H as [E|[]]. injection E as -> ->. auto.
  Qed.

  (* matching an active slot is equality of keys *)
  Lemma mt_active k s k' : slot_ok s -> s_key s = SKey k' -> mt k s = eqb k' k.
  Proof.
    intros Hs Hk. unfold slot_ok in Hs. rewrite Hk in Hs. destruct Hs as [Hh _]. unfold matches. rewrite Hh, Hk.
    assert (HB : by_ptr = true \/ by_ptr = false) by (destruct by_ptr; auto). destruct HB as [Eb|Eb]; rewrite Eb.
    - destruct (Z.eqb_spec (hash k') (hash k)) as [E|E].
      + symmetry. apply ptr_hash; auto.
      + destruct (eqb k' k) eqn:E2; [apply eqb_hash in E2; contradiction|reflexivity].
    - destruct (eqb k' k) eqn:E2.
      + rewrite (eqb_hash _ _ E2), Z.eqb_refl. apply orb_true_r.
      + rewrite andb_false_r, orb_false_r. destruct (same k' k) eqn:E3; auto. apply same_eqb in E3. congruence.
  Qed.

  (* the probe loop stops at the first unused or matching slot *)
  Lemma probe_stops m hv tbl (Hm : forall s, m s = true -> is_null s = false \/ True) :
    forall T fuel i perturb free, T < fuel ->
    0 < length tbl -> i < length tbl ->
    (forall t s, t < T -> nth_error tbl (pos_at (length tbl) i perturb t) = Some s -> is_null s = false /\ m s = false) ->
    (exists s, nth_error tbl (pos_at (length tbl) i perturb T) = Some s /\ (is_null s = true \/ m s = true)) ->
    match free with Some q => q < length tbl | None => True end ->
    exists s, nth_error tbl (pos_at (length tbl) i perturb T) = Some s /\
      if is_null s then
        exists p sp, probe K V fuel m hv tbl i perturb free = Some (p, upd tbl p (mkSlot hv (s_key sp) (s_val sp))) /\
          nth_error tbl p = Some sp /\
          (match free with
           | Some q => p = q
           | None => exists t, t <= T /\ p = pos_at (length tbl) i perturb t /\ (s_key sp = SDummy \/ s_key sp = SNull)
           end)
      else m s = true /\ probe K V fuel m hv tbl i perturb free = Some (pos_at (length tbl) i perturb T, tbl).
  Proof.
    clear Hm. induction T as [|T IH]; intros fuel i perturb free Hf Hl Hi Hbefore (s & Hs & Hend) Hfree.
    - cbn [pos_at] in *. exists s. split; auto. destruct fuel as [|fuel]; [lia|]. cbn [probe]. rewrite Hs. cbn [obind].
      unfold is_null in *. destruct (s_key s) eqn:Ek.
      + destruct free as [q|].
        * pose proof (nth_error_nth_len tbl q null Hfree) as Hq. rewrite Hq. cbn [obind].
          exists q, (nth q tbl null). split; [reflexivity|]. split; auto.
        * rewrite Hs. cbn [obind]. exists i, s. split; [reflexivity|]. split; auto. exists 0. split; auto.
      + destruct Hend as [H|H]; [discriminate|]. rewrite H. auto.
      + destruct Hend as [H|H]; [discriminate|]. rewrite H. auto.
    - destruct fuel as [|fuel]; [lia|]. pose proof (nth_error_nth_len tbl i null Hi) as H0.
      set (s0 := nth i tbl null) in *. destruct (Hbefore 0 s0 ltac:(lia) H0) as [Hn0 Hm0].
      cbn [pos_at] in Hs. cbn [probe]. rewrite H0. cbn [obind].
      set (free' := match free, s_key s0 with None, SDummy => Some i | _, _ => free end).
      destruct (IH fuel (probe_next (length tbl) i perturb) (perturb / 32)%Z free') as (s1 & Hs1 & Hres).
      + lia.
      + auto.
      + apply probe_next_lt; auto.
      + intros t s' Ht Hs'. apply (Hbefore (S t)); [lia|exact Hs'].
      + exists s; auto.
      + subst free'. destruct free as [q|]; [exact Hfree|]. destruct (s_key s0); auto.
      + rewrite Hs in Hs1. apply some_inj in Hs1. subst s1. exists s. split; [exact Hs|].
        assert (Hstep : probe K V (S fuel) m hv tbl i perturb free =
                        probe K V fuel m hv tbl (probe_next (length tbl) i perturb) (perturb / 32)%Z free').
        { cbn [probe]. rewrite H0. cbn [obind]. unfold is_null in Hn0. subst free'. destruct (s_key s0); [discriminate| |];
            rewrite Hm0; reflexivity. }
        cbn [probe] in Hstep. rewrite H0 in Hstep. cbn [obind] in Hstep. cbn [pos_at]. 
        destruct (is_null s).
        * destruct Hres as (p & sp & E & Hp & Hpos). exists p, sp. split; [rewrite <- E; exact Hstep|]. split; auto.
          subst free'. destruct free as [q|]; auto.
          destruct (s_key s0) eqn:Ek; unfold is_null in Hn0; rewrite Ek in Hn0; try discriminate.
          -- subst p. exists 0. split; [lia|]. split; [reflexivity|]. left.
             rewrite H0 in Hp. apply some_inj in Hp. subst sp. exact Ek.
          -- destruct Hpos as (t & Ht & -> & Hk). exists (S t). split; [lia|]. split; auto.
        * destruct Hres as (Hm1 & E). split; auto. rewrite <- E. exact Hstep.
  Qed.

  Lemma first_such (P : nat -> bool) : forall n, P n = true -> exists T, T <= n /\ P T = true /\ forall t, t < T -> P t = false.
  Proof.
    induction n as [n IH] using lt_wf_ind. intros H.
    destruct (existsb P (seq 0 n)) eqn:E.
    - apply existsb_exists in E. destruct E as (t & Ht & HP). apply in_seq in Ht.
      destruct (IH t ltac:(lia) HP) as (T & H1 & H2 & H3). exists T. split; [lia|]. auto.
    - exists n. split; auto. split; auto. intros t Ht. destruct (P t) eqn:Et; auto.
      assert (existsb P (seq 0 n) = true) by (apply existsb_exists; exists t; rewrite in_seq; split; [lia|auto]). congruence.
  Qed.

  (* outcome of a search *)
  Lemma search_ok m hv tbl : (exists e, length tbl = 2 ^ e) -> filled tbl < length tbl -> (0 <= hv < 2 ^ 64)%Z ->
    exists T s, nth_error tbl (pseq (length tbl) hv T) = Some s /\
      (forall t s', t < T -> nth_error tbl (pseq (length tbl) hv t) = Some s' -> is_null s' = false /\ m s' = false) /\
      if is_null s then
        exists p sp t, probe K V (probe_fuel (length tbl)) m hv tbl (start (length tbl) hv) hv None
            = Some (p, upd tbl p (mkSlot hv (s_key sp) (s_val sp))) /\
          nth_error tbl p = Some sp /\ t <= T /\ p = pseq (length tbl) hv t /\ (s_key sp = SDummy \/ s_key sp = SNull)
      else m s = true /\ probe K V (probe_fuel (length tbl)) m hv tbl (start (length tbl) hv) hv None
            = Some (pseq (length tbl) hv T, tbl).
  Proof.
    intros (e & He) Hfill Hh. destruct (exists_null tbl Hfill) as (j & sj & Hj & Hnull).
    assert (Hl : 0 < length tbl) by lia.
    assert (Hjl : j < 2 ^ e) by (rewrite <- He; apply nth_error_Some; congruence).
    destruct (pseq_covers e hv j Hh Hjl) as (t0 & Ht0 & E0). rewrite <- He in Ht0, E0.
    set (P := fun t => let s := nth (pseq (length tbl) hv t) tbl null in is_null s || m s).
    assert (HP0 : P t0 = true).
    { unfold P. rewrite E0. rewrite (nth_error_nth _ _ _ Hj). rewrite Hnull. reflexivity. }
    destruct (first_such P t0 HP0) as (T & HT & HPT & Hbefore).
    assert (Hpl : forall t, pseq (length tbl) hv t < length tbl) by (intros; apply pseq_lt; auto).
    pose proof (nth_error_nth_len tbl _ null (Hpl T)) as HsT.
    exists T, (nth (pseq (length tbl) hv T) tbl null). split; [exact HsT|].
    assert (HB : forall t s', t < T -> nth_error tbl (pseq (length tbl) hv t) = Some s' -> is_null s' = false /\ m s' = false).
    { intros t s' Ht Hs'. specialize (Hbefore t Ht). unfold P in Hbefore. rewrite (nth_error_nth _ _ _ Hs') in Hbefore.
      apply orb_false_iff in Hbefore. exact Hbefore. }
    split; [exact HB|].
    destruct (probe_stops m hv tbl ltac:(auto) T (probe_fuel (length tbl)) (start (length tbl) hv) hv None) as (s & Hs & Hres).
    - unfold probe_fuel. lia.
    - auto.
    - apply start_lt; auto.
    - exact HB.
    - exists (nth (pseq (length tbl) hv T) tbl null). split; [exact HsT|]. apply orb_true_iff. exact HPT.
    - exact I.
    - fold (pseq (length tbl) hv T) in Hs. rewrite HsT in Hs. apply some_inj in Hs. subst s.
      destruct (is_null (nth (pseq (length tbl) hv T) tbl null)).
      + destruct Hres as (p & sp & E & Hp & t & Ht & Hpt & Hk). exists p, sp, t. auto.
      + exact Hres.
  Qed.

  (* ---------- changing one slot *)
  Lemma nth_error_upd_eq {A} (l : list A) p v : p < length l -> nth_error (upd l p v) p = Some v.
  Proof. intros H. rewrite nth_error_upd. rewrite Nat.eqb_refl. destruct (Nat.ltb_spec p (length l)); [reflexivity|lia]. Qed.
  Lemma nth_error_upd_neq {A} (l : list A) p q v : p <> q -> nth_error (upd l p v) q = nth_error l q.
  Proof. intros H. rewrite nth_error_upd. destruct (Nat.eqb_spec p q); [contradiction|reflexivity]. Qed.

  Lemma path_upd tbl p s s' k q : nth_error tbl p = Some s -> path tbl k q ->
    (is_null s = false -> is_null s' = false) -> (mt k s' = true -> is_null s = true \/ mt k s = true \/ p = q) ->
    (exists sq, nth_error tbl q = Some sq /\ is_null sq = false /\ mt k sq = true) ->
    path (upd tbl p s') k q.
  Proof.
    intros Hp (t & Et & Hbefore) Hnull Hmt (sq & Hq & Hqn & Hqm). exists t. rewrite upd_length. split; auto.
    intros t' s1 Ht' Hs1. destruct (Nat.eq_dec p (pseq (length tbl) (hash k) t')) as [E|E].
    - assert (Hpl : p < length tbl) by (apply nth_error_Some; congruence).
      rewrite <- E in Hs1. rewrite nth_error_upd_eq in Hs1 by auto. apply some_inj in Hs1. subst s1.
      destruct (Hbefore t' s Ht' ltac:(rewrite <- E; exact Hp)) as [H1 H2].
      split; [auto|]. destruct (mt k s') eqn:Em; auto.
      destruct (Hmt eq_refl) as [H|[H|H]]; try congruence.
    - rewrite nth_error_upd_neq in Hs1 by auto. eapply Hbefore; eauto.
  Qed.

  Lemma active_matches tbl q s k : TInv tbl -> nth_error tbl q = Some s -> s_key s = SKey k -> mt k s = true.
  Proof.
    intros HT Hq Hk. rewrite (mt_active k s k); auto.
    apply (proj1 (Forall_forall _ _) (ti_slots _ HT)). eapply nth_error_In; eauto.
  Qed.

  Lemma mk_slot_ok k v : slot_ok (mkSlot (hash k) (SKey k) (Some v)).
  Proof. unfold slot_ok; cbn. split; auto; discriminate. Qed.
  Lemma Forall_upd' {A} (P : A -> Prop) l i v : Forall P l -> P v -> Forall P (upd l i v).
  Proof. intros H Hv; revert i; induction H; intros [|i]; cbn; constructor; auto. Qed.

  Lemma path_self tbl p k s' : path tbl k p -> path (upd tbl p s') k p.
  Proof.
    intros (t & Et & Hb).
    destruct (first_such (fun t => pseq (length tbl) (hash k) t =? p) t) as (t0 & A1 & A2 & A3).
    { rewrite Et. apply Nat.eqb_refl. }
    apply Nat.eqb_eq in A2. exists t0. rewrite upd_length. split; auto.
    intros t' s1 Ht' Hs1. specialize (A3 t' Ht'). apply Nat.eqb_neq in A3.
    rewrite nth_error_upd_neq in Hs1 by (intro; apply A3; auto).
    apply (Hb t' s1); [lia|auto].
  Qed.
  Lemma mt_eqv k k' s : slot_ok s -> eqb k' k = true -> mt k' s = mt k s.
  Proof.
    intros Hs He. destruct (s_key s) as [| |ky] eqn:Ek.
    - unfold matches. rewrite (eqb_hash _ _ He), Ek. reflexivity.
    - unfold matches. rewrite (eqb_hash _ _ He), Ek. reflexivity.
    - rewrite !(mt_active _ s ky) by auto. destruct (eqb ky k') eqn:A, (eqb ky k) eqn:B; auto.
      + rewrite (eqb_trans ky k' k A He) in B. congruence.
      + rewrite eqb_sym in He. rewrite (eqb_trans ky k k' B He) in A. congruence.
  Qed.
  Lemma path_eqv tbl k k' p : TInv tbl -> eqb k' k = true -> path tbl k' p -> path tbl k p.
  Proof.
    intros HT He (t & Et & Hb). rewrite (eqb_hash _ _ He) in Et. exists t. split; auto.
    intros t' s Ht' Hs. rewrite <- (eqb_hash _ _ He) in Hs. destruct (Hb t' s Ht' Hs) as [H1 H2]. split; auto.
    rewrite <- (mt_eqv k k' s); auto. apply (proj1 (Forall_forall _ _) (ti_slots _ HT)). eapply nth_error_In; eauto.
  Qed.

  (* a free slot becomes the entry for a new key *)
  Lemma put_ok tbl p sp k v : TInv tbl -> nth_error tbl p = Some sp -> (s_key sp = SDummy \/ s_key sp = SNull) ->
    path tbl k p -> (forall k' v', In (k', v') (actives tbl) -> eqb k' k = false) ->
    TInv (upd tbl p (mkSlot (hash k) (SKey k) (Some v))) /\
    Permutation (actives (upd tbl p (mkSlot (hash k) (SKey k) (Some v)))) ((k, v) :: actives tbl).
  Proof.
    intros HT Hp Hk Hpath Hfresh. set (s' := mkSlot (hash k) (SKey k) (Some v)).
    assert (Hpl : p < length tbl) by (apply nth_error_Some; congruence).
    destruct (actives_upd tbl p sp s' Hp) as (l1 & l2 & E1 & E2).
    assert (Hact : act sp = []) by (unfold act; destruct Hk as [-> | ->]; reflexivity).
    rewrite Hact in E1. cbn [app] in E1. unfold act in E2 at 1. cbn [s' s_key s_val] in E2. cbn [app] in E2.
    assert (HP : Permutation (actives (upd tbl p s')) ((k, v) :: actives tbl)).
    { rewrite E1, E2. apply Permutation_sym, Permutation_middle. }
    split; [|exact HP]. constructor.
    - rewrite upd_length. apply HT.
    - apply Forall_upd'; [apply HT|apply mk_slot_ok].
    - intros q s k0 Hq Hk0. destruct (Nat.eq_dec p q) as [<-|Hn].
      + rewrite nth_error_upd_eq in Hq by auto. apply some_inj in Hq. subst s. cbn in Hk0. injection Hk0 as <-.
        apply path_self; auto.
      + rewrite nth_error_upd_neq in Hq by auto.
        assert (Hm : mt k0 s = true) by (eapply active_matches; eauto).
        apply path_upd with (s := sp); auto.
        * eapply ti_path; eauto.
        * intros Hm'. exfalso. subst s'. rewrite (mt_active k0 _ k) in Hm' by (auto; apply mk_slot_ok).
          pose proof (proj1 (Forall_forall _ _) (ti_slots _ HT) s (nth_error_In _ _ Hq)) as Hso.
          unfold slot_ok in Hso. rewrite Hk0 in Hso. destruct Hso as [_ Hv]. destruct (s_val s) as [v0|] eqn:Ev; [|congruence].
          specialize (Hfresh k0 v0 (in_actives _ _ _ _ _ Hq Hk0 Ev)). rewrite eqb_sym in Hm'. congruence.
        * exists s. split; auto. split; auto. unfold is_null. rewrite Hk0. reflexivity.
    - apply pairwise_perm with ((k, v) :: actives tbl); [apply Permutation_sym; exact HP|].
      constructor; [|apply HT]. apply Forall_forall. intros (k', v') Hin. cbn. rewrite eqb_sym. eapply Hfresh; eauto.
  Qed.

  (* a slot keeps its (equal) key but gets new key pointer and value *)
  Lemma replace_ok tbl p sp k' k v0 v : TInv tbl -> nth_error tbl p = Some sp -> s_key sp = SKey k' -> s_val sp = Some v0 ->
    eqb k' k = true ->
    TInv (upd tbl p (mkSlot (s_hash sp) (SKey k) (Some v))) /\
    exists l1 l2, actives tbl = l1 ++ (k', v0) :: l2 /\
      actives (upd tbl p (mkSlot (s_hash sp) (SKey k) (Some v))) = l1 ++ (k, v) :: l2.
  Proof.
    intros HT Hp Hk Hv0 He.
    assert (Hpl : p < length tbl) by (apply nth_error_Some; congruence).
    pose proof (proj1 (Forall_forall _ _) (ti_slots _ HT) sp (nth_error_In _ _ Hp)) as Hso.
    assert (Hh : s_hash sp = hash k).
    { unfold slot_ok in Hso. rewrite Hk in Hso. rewrite (proj1 Hso). apply eqb_hash; auto. }
    rewrite Hh. set (s' := mkSlot (hash k) (SKey k) (Some v)).
    destruct (actives_upd tbl p sp s' Hp) as (l1 & l2 & E1 & E2).
    unfold act in E1 at 1. rewrite Hk, Hv0 in E1. unfold act in E2 at 1. cbn [s' s_key s_val app] in E1, E2.
    assert (Heqv : forall x, eqb x k' = eqb x k).
    { intros x. destruct (eqb x k') eqn:A, (eqb x k) eqn:B; auto.
      - rewrite (eqb_trans x k' k A He) in B. congruence.
      - rewrite eqb_sym in He. rewrite (eqb_trans x k k' B He) in A. congruence. }
    split; [|exists l1, l2; auto].
    assert (Hmteq : forall x, mt x s' = mt x sp).
    { intros x. rewrite (mt_active x s' k) by (auto; apply mk_slot_ok). rewrite (mt_active x sp k') by auto.
      rewrite !(eqb_sym _ x). symmetry. apply Heqv. }
    assert (Hnn : is_null sp = false) by (unfold is_null; rewrite Hk; reflexivity).
    constructor.
    - rewrite upd_length. apply HT.
    - apply Forall_upd'; [apply HT|apply mk_slot_ok].
    - intros q s k0 Hq Hk0. destruct (Nat.eq_dec p q) as [<-|Hn].
      + rewrite nth_error_upd_eq in Hq by auto. apply some_inj in Hq. subst s. cbn in Hk0. injection Hk0 as <-.
        assert (Hpk : path tbl k p) by (apply path_eqv with k'; auto; eapply ti_path; eauto).
        apply path_upd with (s := sp); auto. exists sp. split; auto. split; auto. rewrite <- Hmteq.
        rewrite (mt_active k s' k) by (auto; apply mk_slot_ok). auto.
      + rewrite nth_error_upd_neq in Hq by auto. apply path_upd with (s := sp); auto.
        * eapply ti_path; eauto.
        * intros Hm. right. left. rewrite <- Hmteq. exact Hm.
        * exists s. split; auto. split; [unfold is_null; rewrite Hk0; reflexivity|]. eapply active_matches; eauto.
    - rewrite E2. pose proof (ti_dist _ HT) as HD. rewrite E1 in HD. 
      apply pairwise_perm with ((k, v) :: l1 ++ l2); [apply Permutation_middle|].
      apply (pairwise_perm _ ((k', v0) :: l1 ++ l2)) in HD; [|apply Permutation_sym, Permutation_middle].
      inversion HD as [|? ? HA HB]; subst. constructor; auto.
      apply Forall_forall. intros x Hx. rewrite Forall_forall in HA. specialize (HA x Hx). cbn in *.
      rewrite eqb_sym, <- Heqv, eqb_sym. exact HA.
  Qed.

  (* an entry is deleted *)
  Lemma delete_ok tbl p sp k v0 : TInv tbl -> nth_error tbl p = Some sp -> s_key sp = SKey k -> s_val sp = Some v0 ->
    TInv (upd tbl p (mkSlot (s_hash sp) SDummy None)) /\
    exists l1 l2, actives tbl = l1 ++ (k, v0) :: l2 /\
      actives (upd tbl p (mkSlot (s_hash sp) SDummy None)) = l1 ++ l2.
  Proof.
    intros HT Hp Hk Hv0. set (s' := mkSlot (s_hash sp) SDummy None).
    assert (Hpl : p < length tbl) by (apply nth_error_Some; congruence).
    pose proof (proj1 (Forall_forall _ _) (ti_slots _ HT) sp (nth_error_In _ _ Hp)) as Hso.
    destruct (actives_upd tbl p sp s' Hp) as (l1 & l2 & E1 & E2).
    unfold act in E1 at 1. rewrite Hk, Hv0 in E1. unfold act in E2 at 1. cbn [s' s_key s_val app] in E1, E2.
    split; [|exists l1, l2; auto]. constructor.
    - rewrite upd_length. apply HT.
    - apply Forall_upd'; [apply HT|]. reflexivity.
    - intros q s k0 Hq Hk0. destruct (Nat.eq_dec p q) as [<-|Hn].
      + rewrite nth_error_upd_eq in Hq by auto. apply some_inj in Hq. subst s. cbn in Hk0. discriminate.
      + rewrite nth_error_upd_neq in Hq by auto. apply path_upd with (s := sp); auto.
        * eapply ti_path; eauto.
        * intros Hm. right. left. unfold matches in *. cbn [s' s_key s_hash] in Hm. destruct by_ptr; [exact Hm|discriminate].
        * exists s. split; auto. split; [unfold is_null; rewrite Hk0; reflexivity|]. eapply active_matches; eauto.
    - rewrite E2. pose proof (ti_dist _ HT) as HD. rewrite E1 in HD. 
      apply (pairwise_perm _ ((k, v0) :: l1 ++ l2)) in HD; [|apply Permutation_sym, Permutation_middle].
      inversion HD; auto.
  Qed.

  (* the search writes the hash into a free slot *)
  Lemma touch_ok tbl p sp k : TInv tbl -> nth_error tbl p = Some sp -> (s_key sp = SDummy \/ s_key sp = SNull) ->
    path tbl k p -> (forall k' v', In (k', v') (actives tbl) -> eqb k' k = false) ->
    let tbl' := upd tbl p (mkSlot (hash k) (s_key sp) (s_val sp)) in
    TInv tbl' /\ actives tbl' = actives tbl /\ filled tbl' = filled tbl /\ path tbl' k p.
  Proof.
    intros HT Hp Hk Hpath Hfresh. cbn zeta. set (s' := mkSlot (hash k) (s_key sp) (s_val sp)).
    assert (Hpl : p < length tbl) by (apply nth_error_Some; congruence).
    pose proof (proj1 (Forall_forall _ _) (ti_slots _ HT) sp (nth_error_In _ _ Hp)) as Hso.
    destruct (actives_upd tbl p sp s' Hp) as (l1 & l2 & E1 & E2).
    assert (Ha : act s' = act sp) by reflexivity. rewrite Ha in E2. rewrite <- E1 in E2.
    split; [|split; [exact E2|split]].
    - constructor.
      + rewrite upd_length. apply HT.
      + apply Forall_upd'; [apply HT|]. unfold slot_ok in *. cbn. destruct Hk as [Hk|Hk]; rewrite Hk in *; auto.
      + intros q s k0 Hq Hk0. destruct (Nat.eq_dec p q) as [<-|Hn].
        * rewrite nth_error_upd_eq in Hq by auto. apply some_inj in Hq. subst s. cbn in Hk0. destruct Hk as [Hk|Hk]; rewrite Hk in Hk0; discriminate.
        * rewrite nth_error_upd_neq in Hq by auto. apply path_upd with (s := sp); auto.
          -- eapply ti_path; eauto.
          -- intros Hm. exfalso.
             pose proof (proj1 (Forall_forall _ _) (ti_slots _ HT) s (nth_error_In _ _ Hq)) as Hso'.
             unfold slot_ok in Hso'. rewrite Hk0 in Hso'. destruct Hso' as [_ Hv]. destruct (s_val s) as [v0|] eqn:Ev; [|congruence].
             specialize (Hfresh k0 v0 (in_actives _ _ _ _ _ Hq Hk0 Ev)).
             unfold matches in Hm. cbn [s' s_key s_hash] in Hm.
             assert (HB : by_ptr = true \/ by_ptr = false) by (destruct by_ptr; auto). destruct HB as [Eb|Eb]; rewrite Eb in Hm.
             ++ apply Z.eqb_eq in Hm. symmetry in Hm. apply (ptr_hash Eb) in Hm. congruence.
             ++ destruct Hk as [Hk|Hk]; rewrite Hk in Hm; discriminate.
          -- exists s. split; auto. split; [unfold is_null; rewrite Hk0; reflexivity|]. eapply active_matches; eauto.
      + rewrite E2. apply HT.
    - pose proof (filled_upd tbl p sp s' Hp) as HF. unfold is_null in HF. cbn [s' s_key] in HF. lia.
    - apply path_self; auto.
  Qed.
  Definition no_active (tbl : list slot) (k : K) : Prop := forall k' v', In (k', v') (actives tbl) -> eqb k' k = false.
  Inductive found (tbl : list slot) (k : K) (p : nat) (tbl' : list slot) (s : slot) : Prop :=
  | Found k' v : tbl' = tbl -> s_key s = SKey k' -> s_val s = Some v -> eqb k' k = true -> found tbl k p tbl' s
  | Free s0 : (s_key s = SDummy \/ s_key s = SNull) -> s_val s = None -> nth_error tbl p = Some s0 -> s_key s0 = s_key s ->
      s_hash s = hash k -> TInv tbl' ->
      actives tbl' = actives tbl -> filled tbl' = filled tbl -> length tbl' = length tbl -> path tbl' k p ->
      no_active tbl k -> found tbl k p tbl' s.

  Lemma lookup_ok tbl k : TInv tbl -> filled tbl < length tbl ->
    exists p tbl' s, look tbl k = Some (p, tbl') /\ nth_error tbl' p = Some s /\ found tbl k p tbl' s.
  Proof.
    intros HT HF. destruct (ti_len _ HT) as (e & He & Hlen).
    destruct (search_ok (mt k) (hash k) tbl ltac:(exists e; auto) HF (hash_range k)) as (T & s & Hs & Hb & Hres).
    assert (Hpl : pseq (length tbl) (hash k) T < length tbl) by (apply nth_error_Some; congruence).
    (* where an active entry for an equal key must be *)
    assert (Hact : forall k' v', In (k', v') (actives tbl) -> eqb k' k = true ->
              is_null s = false -> s_key s = SKey k').
    { intros k' v' Hin He' Hnn. apply actives_in in Hin. destruct Hin as (q & sq & Hq & Hk & Hv).
      assert (Hpath : path tbl k q) by (apply path_eqv with k'; auto; eapply ti_path; eauto).
      destruct Hpath as (t & Et & Hbt).
      pose proof (proj1 (Forall_forall _ _) (ti_slots _ HT) sq (nth_error_In _ _ Hq)) as Hso.
      assert (Hmq : mt k sq = true) by (rewrite (mt_active k sq k'); auto).
      destruct (lt_eq_lt_dec t T) as [[H|H]|H].
      - destruct (Hb t sq H ltac:(rewrite Et; exact Hq)) as [_ Hf]. congruence.
      - subst t. rewrite Et, Hq in Hs. apply some_inj in Hs. subst sq. exact Hk.
      - destruct (Hbt T s H Hs) as [_ Hf].
        rewrite Hnn in Hres. destruct Hres as [Hm _]. congruence. }
    assert (Hnull : is_null s = true -> no_active tbl k).
    { intros Hn k' v' Hin. destruct (eqb k' k) eqn:E; auto. exfalso.
      apply actives_in in Hin. destruct Hin as (q & sq & Hq & Hk & Hv).
      assert (Hpath : path tbl k q) by (apply path_eqv with k'; auto; eapply ti_path; eauto).
      destruct Hpath as (t & Et & Hbt).
      pose proof (proj1 (Forall_forall _ _) (ti_slots _ HT) sq (nth_error_In _ _ Hq)) as Hso.
      assert (Hmq : mt k sq = true) by (rewrite (mt_active k sq k'); auto).
      destruct (lt_eq_lt_dec t T) as [[H|H]|H].
      - destruct (Hb t sq H ltac:(rewrite Et; exact Hq)) as [_ Hf]. congruence.
      - subst t. rewrite Et, Hq in Hs. apply some_inj in Hs. subst sq. unfold is_null in Hn. rewrite Hk in Hn. discriminate.
      - destruct (Hbt T s H Hs) as [Hf _]. congruence. }
    unfold lookup. destruct (is_null s) eqn:Hn.
    - destruct Hres as (p & sp & t & E & Hp & Ht & Hpt & Hk). rewrite E.
      assert (Hpl' : p < length tbl) by (apply nth_error_Some; congruence).
      assert (Hpath : path tbl k p).
      { exists t. split; auto. intros t' s' Ht' Hs'. apply (Hb t' s'); [lia|auto]. }
      destruct (touch_ok tbl p sp k HT Hp Hk Hpath (Hnull eq_refl)) as (A1 & A2 & A3 & A4).
      eexists p, _, _. split; [reflexivity|]. split; [apply nth_error_upd_eq; auto|].
      pose proof (proj1 (Forall_forall _ _) (ti_slots _ HT) sp (nth_error_In _ _ Hp)) as Hso.
      eapply Free with (s0 := sp); auto.
      + cbn. unfold slot_ok in Hso. destruct Hk as [Hk|Hk]; rewrite Hk in Hso; auto.
      + apply upd_length.
    - destruct Hres as [Hm E]. rewrite E. exists (pseq (length tbl) (hash k) T), tbl, s. split; [reflexivity|]. split; [exact Hs|].
      pose proof (proj1 (Forall_forall _ _) (ti_slots _ HT) s (nth_error_In _ _ Hs)) as Hso.
      destruct (s_key s) as [| |k'] eqn:Ek.
      + unfold is_null in Hn. rewrite Ek in Hn. discriminate.
      + apply (Free tbl k _ tbl s s).
        * rewrite Ek; auto.
        * unfold slot_ok in Hso. rewrite Ek in Hso. auto.
        * exact Hs.
        * reflexivity.
        * unfold matches in Hm. rewrite Ek in Hm. destruct by_ptr; [|discriminate]. apply Z.eqb_eq. exact Hm.
        * exact HT.
        * reflexivity.
        * reflexivity.
        * reflexivity.
        * exists T. split; auto. 
        * intros k' v' Hin. destruct (eqb k' k) eqn:E'; auto. specialize (Hact k' v' Hin E' eq_refl). discriminate.
      + unfold slot_ok in Hso. rewrite Ek in Hso. destruct Hso as [Hh Hv]. destruct (s_val s) as [v|] eqn:Ev; [|congruence].
        eapply Found with (k' := k') (v := v); auto.
        rewrite <- (mt_active k s k'); auto. unfold slot_ok. rewrite Ek, Ev. split; auto.
  Qed.

  (* ---------- growing *)
  Definition no_dummy (tbl : list slot) : Prop := Forall (fun s => s_key s <> SDummy) tbl.
  Lemma pairwise_app_inv l1 l2 : pairwise (l1 ++ l2) -> pairwise l1 /\ pairwise l2 /\
    forall a b, In a l1 -> In b l2 -> eqb (fst a) (fst b) = false.
  Proof.
    induction l1 as [|x l1 IH]; cbn [app].
    - intros H. split; [constructor|]. split; auto. intros a b [].
    - intros H. inversion H as [|? ? HA HB]; subst. destruct (IH HB) as (I1 & I2 & I3). split; [|split; auto].
      + constructor; auto. rewrite Forall_forall in *. intros y Hy. apply HA. apply in_or_app; auto.
      + intros a b [->|Ha] Hb; auto. rewrite Forall_forall in HA. apply HA. apply in_or_app; auto.
  Qed.

  Lemma rehash_ok : forall old new n, Forall slot_ok old -> TInv new -> no_dummy new ->
    pairwise (actives new ++ actives old) -> length (actives old) = n -> filled new + n < length new ->
    exists new', rehash K V old n new = Some new' /\ TInv new' /\ no_dummy new' /\
      Permutation (actives new') (actives new ++ actives old) /\ length new' = length new /\ filled new' = filled new + n.
  Proof.
    induction old as [|s old IH]; intros new n Hok HT Hnd HP Hn Hfill.
    - cbn in Hn. subst n. cbn [rehash]. exists new. split; auto. split; auto. split; auto.
      cbn [actives flat_map]. rewrite app_nil_r. split; auto.
    - inversion Hok as [|? ? Hs Hok']; subst.
      destruct (s_key s) as [| |k] eqn:Ek.
      + assert (Ha : actives (s :: old) = actives old) by (unfold actives; cbn [flat_map]; unfold act at 1; rewrite Ek; reflexivity).
        rewrite Ha in *. destruct (length (actives old)) as [|n] eqn:En.
        * cbn [rehash]. exists new. apply length_zero_iff_nil in En. rewrite En, app_nil_r. repeat (split; auto).
        * cbn [rehash]. rewrite Ek. apply IH; auto.
      + assert (Ha : actives (s :: old) = actives old) by (unfold actives; cbn [flat_map]; unfold act at 1; rewrite Ek; reflexivity).
        rewrite Ha in *. destruct (length (actives old)) as [|n] eqn:En.
        * cbn [rehash]. exists new. apply length_zero_iff_nil in En. rewrite En, app_nil_r. repeat (split; auto).
        * cbn [rehash]. rewrite Ek. apply IH; auto.
      + unfold slot_ok in Hs. rewrite Ek in Hs. destruct Hs as [Hh Hv]. destruct (s_val s) as [v|] eqn:Ev; [|congruence].
        assert (Ha : actives (s :: old) = (k, v) :: actives old) by (unfold actives; cbn [flat_map]; unfold act at 1; rewrite Ek, Ev; reflexivity).
        rewrite Ha in *. cbn [length rehash]. rewrite Ek. unfold resize_lookup. rewrite Hh.
        cbn [length] in Hfill. destruct (ti_len _ HT) as (e & He & Hlen).
        destruct (search_ok (fun _ => false) (hash k) new ltac:(exists e; auto) ltac:(lia) (hash_range k)) as (T & s1 & Hs1 & Hb & Hres).
        destruct (is_null s1); [|destruct Hres; discriminate].
        destruct Hres as (p & sp & t & E & Hp & Ht & Hpt & Hkp). rewrite E. cbn [obind fst snd].
        assert (Hpl : p < length new) by (apply nth_error_Some; congruence).
        rewrite nth_error_upd_eq by auto. cbn [obind s_hash].
        assert (Huu : forall x y, upd (upd new p x) p y = upd new p y).
        { intros x y. apply nth_error_split in Hp. destruct Hp as (l1 & l2 & -> & <-). rewrite !upd_mid. reflexivity. }
        rewrite Huu. rewrite Ev.
        assert (Hfresh : forall k' v', In (k', v') (actives new) -> eqb k' k = false).
        { intros k' v' Hin. apply pairwise_app_inv in HP. destruct HP as (_ & _ & H). apply (H (k', v') (k, v)); auto. left; auto. }
        assert (Hpath : path new k p).
        { exists t. split; auto. intros t' s' Ht' Hs'. destruct (Hb t' s' ltac:(lia) Hs') as [H1 _]. split; auto.
          pose proof (proj1 (Forall_forall _ _) (ti_slots _ HT) s' (nth_error_In _ _ Hs')) as Hso.
          pose proof (proj1 (Forall_forall _ _) Hnd s' (nth_error_In _ _ Hs')) as Hd. cbn in Hd.
          destruct (s_key s') as [| |k'] eqn:Ek'; [unfold is_null in H1; rewrite Ek' in H1; discriminate|congruence|].
          rewrite (mt_active k s' k') by auto. unfold slot_ok in Hso. rewrite Ek' in Hso. destruct Hso as [_ Hv'].
          destruct (s_val s') as [v'|] eqn:Ev'; [|congruence]. eapply Hfresh. eapply in_actives; eauto. }
        destruct (put_ok new p sp k v HT Hp Hkp Hpath Hfresh) as (P1 & P2).
        pose proof (filled_upd new p sp (mkSlot (hash k) (SKey k) (Some v)) Hp) as HF.
        assert (Hnull : is_null sp = true).
        { unfold is_null. destruct Hkp as [Hkp|Hkp]; rewrite Hkp; auto.
          pose proof (proj1 (Forall_forall _ _) Hnd sp (nth_error_In _ _ Hp)) as Hd. cbn in Hd. congruence. }
        rewrite Hnull in HF. unfold is_null in HF. cbn [s_key] in HF.
        destruct (IH (upd new p (mkSlot (hash k) (SKey k) (Some v))) (length (actives old))) as (new' & R1 & R2 & R3 & R4 & R5 & R6); auto.
        * apply Forall_upd'; auto. cbn. discriminate.
        * eapply pairwise_perm; [|exact HP]. rewrite P2. cbn [app]. apply Permutation_sym, Permutation_middle.
        * rewrite upd_length. lia.
        * exists new'. split; [exact R1|]. split; auto. split; auto. split; [|split].
          -- rewrite R4, P2. cbn [app]. apply Permutation_middle.
          -- rewrite R5, upd_length. reflexivity.
          -- lia.
  Qed.

  Lemma newsize_ok min : forall f e, min <= f + 2 ^ e -> exists e', newsize (S f) (2 ^ e) min = Some (2 ^ e') /\ e <= e' /\ min <= 2 ^ e'.
  Proof.
    intros f. induction f as [|f IH]; intros e H.
    - cbn [newsize]. destruct (Nat.ltb_spec (2 ^ e) min) as [Hlt|Hge]; [lia|]. exists e. auto.
    - assert (E : newsize (S (S f)) (2 ^ e) min = if 2 ^ e <? min then newsize (S f) (2 * 2 ^ e) min else Some (2 ^ e)) by reflexivity.
      rewrite E. destruct (Nat.ltb_spec (2 ^ e) min) as [Hlt|Hge].
      + replace (2 * 2 ^ e) with (2 ^ S e) by (rewrite Nat.pow_succ_r'; reflexivity).
        destruct (IH (S e)) as (e' & A & B & C).
        { rewrite Nat.pow_succ_r'. pose proof (Nat.pow_nonzero 2 e ltac:(lia)). lia. }
        exists e'. split; auto. split; [lia|auto].
      + exists e. auto.
  Qed.

  Lemma repeat_null_TInv e : 3 <= e -> TInv (repeat null (2 ^ e)) /\ no_dummy (repeat null (2 ^ e)) /\
    actives (repeat null (2 ^ e)) = [] /\ filled (repeat null (2 ^ e)) = 0.
  Proof.
    intros He.
    assert (Ha : forall n, actives (repeat null n) = []) by (induction n; cbn; auto).
    assert (Hf : forall n, filled (repeat null n) = 0) by (induction n; cbn; auto).
    split; [|split; [|auto]].
    - constructor.
      + exists e. rewrite repeat_length. auto.
      + apply Forall_forall. intros s Hs. apply repeat_spec in Hs. rewrite Hs. reflexivity.
      + intros q s k Hq Hk. apply nth_error_In in Hq. apply repeat_spec in Hq. rewrite Hq in Hk. discriminate.
      + rewrite Ha. constructor.
    - apply Forall_forall. intros s Hs. apply repeat_spec in Hs. rewrite Hs. discriminate.
  Qed.

  Lemma resize_ok tbl fill n min : TInv tbl -> length (actives tbl) = n -> 2 * n <= min ->
    exists tbl', h_resize K V (mkHash tbl fill n) min = Some (mkHash tbl' n n) /\ TInv tbl' /\ no_dummy tbl' /\
      Permutation (actives tbl') (actives tbl) /\ filled tbl' = n /\ n + 1 < length tbl'.
  Proof.
    intros HT Hn Hmin. unfold h_resize. cbn [h_tbl h_size].
    destruct (newsize_ok min min 3 ltac:(lia)) as (e & E & He & Hm). change (2 ^ 3) with 8 in E. rewrite E. cbn [obind].
    destruct (repeat_null_TInv e He) as (A1 & A2 & A3 & A4).
    assert (H8 : 2 ^ 3 <= 2 ^ e) by (apply Nat.pow_le_mono_r; lia). change (2 ^ 3) with 8 in H8.
    destruct (rehash_ok tbl (repeat null (2 ^ e)) n) as (t' & R1 & R2 & R3 & R4 & R5 & R6); auto.
    - apply HT.
    - rewrite A3. apply HT.
    - rewrite A4, repeat_length. lia.
    - rewrite R1. cbn [obind]. exists t'. split; [reflexivity|]. split; auto. split; auto. split.
      + rewrite R4, A3. reflexivity.
      + rewrite R5, R6, A4, repeat_length. lia.
  Qed.

  (* ---------- association lists *)
  Notation mfind := (m_find K V eqb).
  Notation mset := (m_set K V eqb).
  Notation mdel := (m_del K V eqb).
  Lemma pairwise_in m k1 v1 k2 v2 : pairwise m -> In (k1, v1) m -> In (k2, v2) m -> eqb k1 k2 = true -> (k1, v1) = (k2, v2).
  Proof.
    unfold pairwise. induction m as [|x m IH]; [intros _ []|]. intros H H1 H2 He. inversion H as [|? ? HA HB]; subst.
    rewrite Forall_forall in HA. destruct H1 as [->|H1], H2 as [E|H2]; auto.
    - specialize (HA _ H2). cbn in HA. congruence.
    - subst x. specialize (HA _ H1). cbn in HA. rewrite eqb_sym in He. congruence.
  Qed.
  Lemma mfind_some m k k' v : pairwise m -> In (k', v) m -> eqb k' k = true -> mfind k m = Some (k', v).
  Proof.
    intros HP Hin He. unfold m_find. destruct (find (fun e => eqb (fst e) k) m) as [[k2 v2]|] eqn:E.
    - apply find_some in E. destruct E as [H1 H2]. cbn in H2. f_equal. apply (pairwise_in m); auto.
      apply eqb_trans with k; auto. rewrite eqb_sym. auto.
    - pose proof (find_none _ _ E _ Hin) as HN. cbn in HN. congruence.
  Qed.
  Lemma mfind_none m k : (forall k' v', In (k', v') m -> eqb k' k = false) -> mfind k m = None.
  Proof.
    intros H. unfold m_find. destruct (find (fun e => eqb (fst e) k) m) as [[k2 v2]|] eqn:E; auto.
    apply find_some in E. destruct E as [H1 H2]. cbn in H2. rewrite (H _ _ H1) in H2. discriminate.
  Qed.
  Lemma mset_map l1 l2 k k' v v0 : pairwise (l1 ++ (k', v0) :: l2) -> eqb k' k = true ->
    map (fun e => if eqb (fst e) k then (k, v) else e) (l1 ++ (k', v0) :: l2) = l1 ++ (k, v) :: l2.
  Proof.
    intros HP He. 
    assert (Hid : forall l, (forall a, In a l -> eqb (fst a) k' = false) -> map (fun e => if eqb (fst e) k then (k, v) else e) l = l).
    { intros l Hl. rewrite <- (map_id l) at 2. apply map_ext_in. intros a Ha. specialize (Hl a Ha).
      destruct (eqb (fst a) k) eqn:E; auto. rewrite eqb_sym in He. rewrite (eqb_trans _ _ _ E He) in Hl. discriminate. }
    rewrite map_app. cbn [map fst]. rewrite He. apply pairwise_app_inv in HP. destruct HP as (_ & HP2 & H12).
    inversion HP2 as [|? ? HA HB]; subst. rewrite !Hid; auto.
    - intros a Ha. rewrite Forall_forall in HA. specialize (HA a Ha). cbn in HA. rewrite eqb_sym. auto.
    - intros a Ha. apply (H12 a (k', v0)); auto. left; auto.
  Qed.
  Lemma mdel_filter l1 l2 k k' v0 : pairwise (l1 ++ (k', v0) :: l2) -> eqb k' k = true ->
    mdel k (l1 ++ (k', v0) :: l2) = l1 ++ l2.
  Proof.
    intros HP He. unfold m_del.
    assert (Hid : forall l : list (K * V), (forall a, In a l -> eqb (fst a) k' = false) -> filter (fun e => negb (eqb (fst e) k)) l = l).
    { induction l as [|x l IH]; intros Hl; auto. cbn [filter].
      pose proof (Hl x (or_introl eq_refl)) as Hx.
      destruct (eqb (fst x) k) eqn:E; [rewrite eqb_sym in He; rewrite (eqb_trans _ _ _ E He) in Hx; discriminate|].
      cbn [negb]. f_equal. apply IH. intros a Ha. apply Hl. right; auto. }
    rewrite filter_app. cbn [filter fst]. rewrite He. cbn [negb]. apply pairwise_app_inv in HP. destruct HP as (_ & HP2 & H12).
    inversion HP2 as [|? ? HA HB]; subst. rewrite !Hid; auto.
    - intros a Ha. rewrite Forall_forall in HA. specialize (HA a Ha). cbn in HA. rewrite eqb_sym. auto.
    - intros a Ha. apply (H12 a (k', v0)); auto. left; auto.
  Qed.
  Lemma perm_filter {A} (f : A -> bool) l l' : Permutation l l' -> Permutation (filter f l) (filter f l').
  Proof.
    induction 1 as [|x l l' HP IH|x y l|l l' l'' H1 IH1 H2 IH2]; cbn [filter]; auto.
    - destruct (f x); auto.
    - destruct (f x), (f y); auto. apply perm_swap.
    - eapply perm_trans; eauto.
  Qed.
  Lemma mdel_none m k : (forall k' v', In (k', v') m -> eqb k' k = false) -> mdel k m = m.
  Proof.
    intros H. unfold m_del. induction m as [|[k' v'] m IH]; auto. cbn [filter fst]. rewrite (H k' v') by (left; auto). cbn [negb].
    f_equal. apply IH. intros. eapply H. right; eauto.
  Qed.

  Lemma HInv_dist h m : HInv h m -> pairwise m.
  Proof. intros (HT & _ & _ & _ & HP). eapply pairwise_perm; [exact HP|]. apply HT. Qed.
  Lemma HInv_in h m k v : HInv h m -> In (k, v) (actives (h_tbl h)) <-> In (k, v) m.
  Proof. intros (_ & _ & _ & _ & HP). split; apply Permutation_in; auto. apply Permutation_sym; auto. Qed.

  (* what a lookup means for the abstract map *)
  Lemma lookup_map h m k : HInv h m -> exists p tbl' s,
    look (h_tbl h) k = Some (p, tbl') /\ nth_error tbl' p = Some s /\ found (h_tbl h) k p tbl' s /\
    HInv (mkHash tbl' (h_fill h) (h_size h)) m /\
    match s_key s with
    | SKey k' => exists v, s_val s = Some v /\ mfind k m = Some (k', v) /\ eqb k' k = true
    | _ => mfind k m = None /\ s_val s = None /\ forall k' v', In (k', v') m -> eqb k' k = false
    end.
  Proof.
    intros HI. pose proof HI as (HT & Hfill & Hlt & Hsize & HP).
    destruct (lookup_ok (h_tbl h) k HT Hlt) as (p & tbl' & s & E & Hs & HF). exists p, tbl', s.
    split; auto. split; auto. split; auto. destruct HF as [k' v E1 E2 E3 E4 | s0 E1 E2 E3 E4 E5 E6 E7 E8 E9 E10 E11].
    - subst tbl'. split; [destruct h; exact HI|]. rewrite E2. exists v. split; auto. split; auto.
      apply mfind_some; auto; [eapply HInv_dist; eauto|]. apply (HInv_in h m k' v HI). eapply in_actives; eauto.
    - split.
      + split; [exact E6|]. cbn [h_tbl h_fill h_size]. rewrite E7, E8, E9. auto.
      + assert (HN : forall k' v', In (k', v') m -> eqb k' k = false).
        { intros k' v' Hin. apply (HInv_in h m k' v' HI) in Hin. eapply E11; eauto. }
        destruct E1 as [E1|E1]; rewrite E1; (split; [apply mfind_none; auto|split; auto]).
  Qed.


  (* ---------- the operations *)
  Lemma upd_upd {A} (l : list A) p x y : upd (upd l p x) p y = upd l p y.
  Proof. revert p. induction l as [|a l IH]; intros [|p]; cbn; auto. f_equal. apply IH. Qed.

  (* storing a new entry in the free slot found *)
  Lemma put_new tbl p s k v fill size m : TInv tbl -> nth_error tbl p = Some s -> (s_key s = SDummy \/ s_key s = SNull) ->
    s_hash s = hash k -> path tbl k p -> no_active tbl k -> Permutation (actives tbl) m -> size = length m ->
    fill = filled tbl -> filled tbl + (if is_null s then 1 else 0) < length tbl ->
    mfind k m = None ->
    HInv (mkHash (upd tbl p (mkSlot (s_hash s) (SKey k) (Some v))) (fill + (if is_null s then 1 else 0)) (size + 1)) (mset k v m).
  Proof.
    intros HT Hp Hk Hh Hpath Hno HP Hsize Hfill Hlt Hfind. rewrite Hh.
    destruct (put_ok tbl p s k v HT Hp Hk Hpath Hno) as (P1 & P2).
    pose proof (filled_upd tbl p s (mkSlot (hash k) (SKey k) (Some v)) Hp) as HF.
    unfold is_null at 2 in HF. cbn [s_key] in HF.
    split; [exact P1|]. cbn [h_tbl h_fill h_size]. rewrite upd_length. unfold m_set. rewrite Hfind.
    split; [destruct (is_null s); lia|]. split; [destruct (is_null s); lia|]. split; [rewrite app_length; cbn; lia|].
    rewrite P2, HP. apply Permutation_cons_append.
  Qed.

  Lemma set_ext_ok h m k : HInv h m -> 
    match mfind k m with
    | None => exists p tbl fill size s, h_set_ext K V hash eqb same by_ptr h k = Some (true, p, mkHash tbl fill size) /\ nth_error tbl p = Some s /\
                forall v, HInv (mkHash (upd tbl p (mkSlot (s_hash s) (SKey k) (Some v))) fill size) (mset k v m)
    | Some (k', v0) => exists p tbl fill size s, h_set_ext K V hash eqb same by_ptr h k = Some (false, p, mkHash tbl fill size) /\ nth_error tbl p = Some s /\
                s_key s = SKey k' /\ HInv (mkHash tbl fill size) m /\
                forall v, HInv (mkHash (upd tbl p (mkSlot (s_hash s) (SKey k) (Some v))) fill size) (mset k v m)
    end.
  Proof.
    intros HI. destruct (lookup_map h m k HI) as (p & tbl' & s & E & Hs & HF & HI' & Hmap).
    unfold h_set_ext. rewrite E. cbn [obind fst snd]. rewrite Hs. cbn [obind].
    pose proof HI' as (HT' & Hfill' & Hlt' & Hsize' & HP'). cbn [h_tbl h_fill h_size] in *.
    pose proof (HInv_dist _ _ HI) as Hdist.
    destruct HF as [k' v0 E1 E2 E3 E4 | s0 E1 E2 E3 E4 E5 E6 E7 E8 E9 E10 E11].
    - rewrite E2 in Hmap |- *. destruct Hmap as (v1 & Hv1 & Hfind & He). rewrite Hfind. rewrite E3 in Hv1. apply some_inj in Hv1. subst v1.
      exists p, tbl', (h_fill h), (h_size h), s. split; auto. split; auto. split; auto. split; auto.
      intros v. destruct (replace_ok tbl' p s k' k v0 v HT' Hs E2 E3 He) as (R1 & l1 & l2 & R2 & R3).
      split; [exact R1|]. cbn [h_tbl h_fill h_size]. rewrite upd_length.
      pose proof (filled_upd tbl' p s (mkSlot (s_hash s) (SKey k) (Some v)) Hs) as HFu.
      unfold is_null in HFu. rewrite E2 in HFu. cbn [s_key] in HFu.
      split; [lia|]. split; [lia|]. unfold m_set. rewrite Hfind. split; [rewrite map_length; auto|].
      rewrite R3. rewrite <- (mset_map l1 l2 k k' v v0).
      + apply Permutation_map. rewrite <- R2. exact HP'.
      + rewrite <- R2. apply HT'.
      + exact He.
    - assert (Hfree : mfind k m = None) by (destruct E1 as [E1|E1]; rewrite E1 in Hmap; apply Hmap).
      rewrite Hfree.
      assert (Hno' : no_active tbl' k) by (unfold no_active; rewrite E7; exact E11).
      destruct E1 as [E1|E1]; rewrite E1.
      + exists p, tbl', (h_fill h), (h_size h + 1), s. split; auto. split; auto. intros v.
        assert (Hn : is_null s = false) by (unfold is_null; rewrite E1; auto).
        pose proof (put_new tbl' p s k v (h_fill h) (h_size h) m HT' Hs (or_introl E1) E5 E10 Hno' HP' Hsize' Hfill') as HN.
        rewrite Hn in HN. rewrite !Nat.add_0_r in HN. apply HN; auto.
      + assert (Hn : is_null s = true) by (unfold is_null; rewrite E1; auto).
        destruct (Nat.ltb_spec ((length (h_tbl h) - 1) * 2) (h_fill h * 3)) as [Hbig|Hsmall].
        * destruct (resize_ok tbl' (h_fill h) (h_size h) (h_size h * (if SLOW_DOWN <? h_size h then 4 else 2)) HT') as (t2 & R1 & R2 & R3 & R4 & R5 & R6).
          { rewrite (Permutation_length HP'). auto. }
          { destruct (SLOW_DOWN <? h_size h); lia. }
          rewrite R1. cbn [obind h_tbl h_fill h_size].
          assert (HI2 : HInv (mkHash t2 (h_size h) (h_size h)) m).
          { split; [exact R2|]. cbn [h_tbl h_fill h_size]. split; auto. split; [lia|]. split; auto. rewrite R4. exact HP'. }
          destruct (lookup_map _ m k HI2) as (p2 & tbl2 & s2 & F1 & F2 & F3 & F4 & F5). cbn [h_tbl] in F1, F3.
          rewrite F1. cbn [obind fst snd].
          exists p2, tbl2, (h_size h + 1), (h_size h + 1), s2. split; auto. split; auto. intros v.
          destruct F3 as [k' v0 G1 G2 G3 G4 | s00 G1 G2 G3 G4 G5 G6 G7 G8 G9 G10 G11].
          { rewrite G2 in F5. destruct F5 as (v1 & _ & F5 & _). congruence. }
          assert (Hnull2 : s_key s2 = SNull).
          { destruct G1 as [G1|G1]; auto. exfalso. apply (proj1 (Forall_forall _ _) R3 s00 (nth_error_In _ _ G3)). congruence. }
          assert (Hn2 : is_null s2 = true) by (unfold is_null; rewrite Hnull2; auto).
          pose proof (put_new tbl2 p2 s2 k v (h_size h) (h_size h) m G6 F2 G1 G5 G10) as HN. rewrite Hn2 in HN.
          apply HN; auto.
          -- unfold no_active. rewrite G7. exact G11.
          -- rewrite G7, R4. exact HP'.
          -- rewrite G8. auto.
          -- rewrite G8, G9. lia.
        * cbn [h_tbl h_fill h_size]. exists p, tbl', (h_fill h + 1), (h_size h + 1), s. split; auto. split; auto. intros v.
          pose proof (put_new tbl' p s k v (h_fill h) (h_size h) m HT' Hs (or_intror E1) E5 E10 Hno' HP' Hsize' Hfill') as HN.
          rewrite Hn in HN. apply HN; auto.
          rewrite E9. destruct (ti_len _ (proj1 HI)) as (e & He & Hlen). 
          assert (2 ^ 3 <= 2 ^ e) by (apply Nat.pow_le_mono_r; lia). change (2 ^ 3) with 8 in *. rewrite <- Hfill'. lia.
  Qed.

  Notation hstep := (h_step K V eqb same hash by_ptr).
  Notation mstep := (m_step K V eqb same).
  Lemma del_ok h m k p tbl' s k' v : look (h_tbl h) k = Some (p, tbl') -> nth_error tbl' p = Some s ->
    HInv (mkHash tbl' (h_fill h) (h_size h)) m -> s_key s = SKey k' -> s_val s = Some v -> eqb k' k = true ->
    HInv (mkHash (upd tbl' p (mkSlot (s_hash s) SDummy None)) (h_fill h) (h_size h - 1)) (mdel k m).
  Proof.
    intros E Hs HI Hk Hv He. pose proof HI as (HT & Hfill & Hlt & Hsize & HP). cbn [h_tbl h_fill h_size] in *.
    destruct (delete_ok tbl' p s k' v HT Hs Hk Hv) as (D1 & l1 & l2 & D2 & D3).
    pose proof (filled_upd tbl' p s (mkSlot (s_hash s) SDummy None) Hs) as HFu.
    unfold is_null in HFu. rewrite Hk in HFu. cbn [s_key] in HFu.
    assert (HPd : Permutation (l1 ++ l2) (mdel k m)).
    { rewrite <- (mdel_filter l1 l2 k k' v); [|rewrite <- D2; apply HT|auto]. rewrite <- D2. apply perm_filter. exact HP. }
    split; [exact D1|]. cbn [h_tbl h_fill h_size]. rewrite upd_length. split; [lia|]. split; [lia|].
    split; [|rewrite D3; exact HPd].
    rewrite <- (Permutation_length HPd). apply Permutation_length in HP. rewrite D2 in HP.
    rewrite !app_length in *. cbn [length] in HP. lia.
  Qed.

  Notation mstatus := (m_status K V eqb same).
  Lemma op_set_ok h m k v : HInv h m -> exists h', h_set K V hash eqb same by_ptr h k v = Some (mstatus k m, h') /\ HInv h' (mset k v m).
  Proof.
    intros HI. pose proof (set_ext_ok h m k HI) as HS. unfold h_set. unfold m_status. destruct (mfind k m) as [[k' v0]|].
    - destruct HS as (p & tbl & fill & size & s & E & Hs & Hk & _ & HI'). rewrite E. cbn [obind h_tbl]. rewrite Hs. cbn [obind].
      unfold store. cbn [h_tbl h_fill h_size]. rewrite Hs. cbn [obind]. rewrite Hk. unfold key_status. eexists. split; [reflexivity|]. apply HI'.
    - destruct HS as (p & tbl & fill & size & s & E & Hs & HI'). rewrite E. cbn [obind h_tbl]. rewrite Hs. cbn [obind].
      unfold store. cbn [h_tbl h_fill h_size]. rewrite Hs. cbn [obind]. eexists. split; [reflexivity|]. apply HI'.
  Qed.
  Lemma op_get_ok h m k : HInv h m -> exists h', h_get K V hash eqb same by_ptr h k = Some (option_map snd (mfind k m), h') /\ HInv h' m.
  Proof.
    intros HI. destruct (lookup_map h m k HI) as (p & tbl' & s & E & Hs & HF & HI' & Hmap). unfold h_get. rewrite E. cbn [obind fst snd]. rewrite Hs. cbn [obind].
    exists (mkHash tbl' (h_fill h) (h_size h)). split; [|exact HI'].
    destruct (s_key s) as [| |k'].
    - destruct Hmap as (-> & -> & _). reflexivity.
    - destruct Hmap as (-> & -> & _). reflexivity.
    - destruct Hmap as (v & -> & -> & _). reflexivity.
  Qed.
  Lemma op_del_ok h m k : HInv h m -> exists h',
    h_del K V hash eqb same by_ptr h k = Some (match mfind k m with Some _ => true | None => false end, h') /\ HInv h' (mdel k m).
  Proof.
    intros HI. destruct (lookup_map h m k HI) as (p & tbl' & s & E & Hs & HF & HI' & Hmap). unfold h_del. rewrite E. cbn [obind fst snd]. rewrite Hs. cbn [obind].
    destruct (s_key s) as [| |k'] eqn:Ek.
    - destruct Hmap as (Hf & _ & Hno). rewrite Hf, (mdel_none m k Hno). eexists. split; [reflexivity|]. exact HI'.
    - destruct Hmap as (Hf & _ & Hno). rewrite Hf, (mdel_none m k Hno). eexists. split; [reflexivity|]. exact HI'.
    - destruct Hmap as (v & Hv & Hf & He). rewrite Hf. eexists. split; [reflexivity|]. eapply del_ok; eauto.
  Qed.
  Lemma op_has_ok h m k : HInv h m -> exists h', h_has_key K V hash eqb same by_ptr h k = Some (mstatus k m, h') /\ HInv h' m.
  Proof.
    intros HI. destruct (lookup_map h m k HI) as (p & tbl' & s & E & Hs & HF & HI' & Hmap). unfold h_has_key. rewrite E. cbn [obind fst snd]. rewrite Hs. cbn [obind].
    exists (mkHash tbl' (h_fill h) (h_size h)). split; [|exact HI']. unfold m_status.
    destruct (s_key s) as [| |k'].
    - destruct Hmap as (-> & _ & _). reflexivity.
    - destruct Hmap as (-> & _ & _). reflexivity.
    - destruct Hmap as (v & _ & -> & _). reflexivity.
  Qed.
  Lemma op_clear_ok h m : HInv h m -> HInv (h_clear K V h) [].
  Proof.
    intros HI. destruct HI as (HT & _). destruct (ti_len _ HT) as (e & He & Hlen).
    unfold h_clear. rewrite Hlen. destruct (repeat_null_TInv e He) as (A1 & A2 & A3 & A4).
    split; [exact A1|]. cbn [h_tbl h_fill h_size]. rewrite A3, A4, repeat_length. pose proof (Nat.pow_nonzero 2 e ltac:(lia)).
    split; auto. split; [lia|]. split; auto.
  Qed.

  Lemma step_ok h m o : HInv h m -> exists h', hstep h o = Some (fst (mstep m o), h') /\ HInv h' (snd (mstep m o)).
  Proof.
    intros HI. destruct o as [k v|k v|k|k|k|k| |]; cbn [h_step m_step fst snd].
    - destruct (op_set_ok h m k v HI) as (h' & E & HI'). rewrite E. cbn [obind fst snd]. eauto.
    - pose proof (set_ext_ok h m k HI) as HS. unfold h_set_safe. destruct (mfind k m) as [[k' v0]|] eqn:Ef.
      + destruct HS as (p & tbl & fill & size & s & E & Hs & Hk & HI0 & HI'). rewrite E. cbn [obind fst snd]. eexists. split; [reflexivity|]. exact HI0.
      + destruct HS as (p & tbl & fill & size & s & E & Hs & HI'). rewrite E. cbn [obind h_tbl].
        unfold store. cbn [h_tbl h_fill h_size]. rewrite Hs. cbn [obind fst snd]. eexists. split; [reflexivity|]. apply HI'.
    - destruct (op_get_ok h m k HI) as (h' & E & HI'). rewrite E. cbn [obind fst snd]. eauto.
    - destruct (op_del_ok h m k HI) as (h' & E & HI'). rewrite E. cbn [obind fst snd]. eauto.
    - destruct (lookup_map h m k HI) as (p & tbl' & s & E & Hs & HF & HI' & Hmap). unfold h_rem. rewrite E. cbn [obind fst snd]. rewrite Hs. cbn [obind fst snd].
      destruct (s_key s) as [| |k'] eqn:Ek.
      + destruct Hmap as (Hf & _ & Hno). rewrite Hf, (mdel_none m k Hno). eexists. split; [reflexivity|]. exact HI'.
      + destruct Hmap as (Hf & _ & Hno). rewrite Hf, (mdel_none m k Hno). eexists. split; [reflexivity|]. exact HI'.
      + destruct Hmap as (v & Hv & Hf & He). rewrite Hf, Hv. eexists. split; [reflexivity|]. cbn [snd]. eapply del_ok; eauto.
    - destruct (op_has_ok h m k HI) as (h' & E & HI'). rewrite E. cbn [obind fst snd]. eauto.
    - eexists. split; [reflexivity|]. eapply op_clear_ok; eauto.
    - exists h. split; [|exact HI]. destruct HI as (_ & _ & _ & -> & _). reflexivity.
  Qed.

  Lemma run_ok ops : forall h m, HInv h m -> exists h',
    h_run K V eqb same hash by_ptr h ops = Some (fst (m_run K V eqb same m ops), h') /\ HInv h' (snd (m_run K V eqb same m ops)).
  Proof.
    induction ops as [|o ops IH]; intros h m HI; cbn [h_run m_run].
    - exists h. auto.
    - destruct (step_ok h m o HI) as (h1 & E1 & HI1). rewrite E1. cbn [obind snd fst].
      destruct (mstep m o) as [r m1]. cbn [fst snd] in *. destruct (IH h1 m1 HI1) as (h2 & E2 & HI2). rewrite E2. cbn [obind fst snd].
      destruct (m_run K V eqb same m1 ops) as [rs m2]. cbn [fst snd] in *. exists h2. auto.
  Qed.

  Lemma new_inv : HInv (h_new K V) [].
  Proof.
    unfold h_new. destruct (repeat_null_TInv 3 ltac:(lia)) as (A1 & A2 & A3 & A4).
    change 8 with (2 ^ 3). split; [exact A1|]. cbn [h_tbl h_fill h_size]. rewrite A3, A4, repeat_length. cbn. repeat split; auto; lia.
  Qed.

  Lemma each_ok : forall tbl, Forall slot_ok tbl ->
    each K V (length (actives tbl)) tbl = Some (map (fun e => (fst e, Some (snd e))) (actives tbl)).
  Proof.
    induction tbl as [|s tbl IH]; intros HF; [reflexivity|]. inversion HF as [|? ? Hs HF']; subst. specialize (IH HF').
    unfold actives. cbn [flat_map]. fold (actives tbl). unfold act, slot_ok in *. destruct (s_key s) as [| |k] eqn:Ek.
    - cbn [app]. destruct (length (actives tbl)) as [|n] eqn:En.
      + cbn [each]. apply length_zero_iff_nil in En. rewrite En. reflexivity.
      + cbn [each]. rewrite Ek. exact IH.
    - cbn [app]. destruct (length (actives tbl)) as [|n] eqn:En.
      + cbn [each]. apply length_zero_iff_nil in En. rewrite En. reflexivity.
      + cbn [each]. rewrite Ek. exact IH.
    - destruct Hs as [_ Hv]. destruct (s_val s) as [v|] eqn:Ev; [|congruence]. cbn [app length map each fst snd]. rewrite Ek, IH, Ev. reflexivity.
  Qed.
  Lemma h_each_ok h m : HInv h m -> exists l, h_each K V h = Some l /\ Permutation l (map (fun e => (fst e, Some (snd e))) m).
  Proof.
    intros (HT & _ & _ & Hsize & HP). unfold h_each. rewrite Hsize, <- (Permutation_length HP). rewrite each_ok by apply HT.
    eexists. split; [reflexivity|]. apply Permutation_map. exact HP.
  Qed.
End Inv.

(* ------------------------------------------------------------ the association list follows the history *)
Section Hist.
  Variables K V : Type.
  Variables eqb same : K -> K -> bool.
  Hypothesis eqb_refl : forall k, eqb k k = true.
  Hypothesis eqb_sym : forall a b, eqb a b = eqb b a.
  Hypothesis eqb_trans : forall a b c, eqb a b = true -> eqb b c = true -> eqb a c = true.
  Lemma eqb_left a b c : eqb a b = true -> eqb a c = eqb b c.
  Proof.
    intros H. destruct (eqb a c) eqn:E1, (eqb b c) eqn:E2; auto.
    - rewrite eqb_sym in H. rewrite (eqb_trans _ _ _ H E1) in E2. congruence.
    - rewrite (eqb_trans _ _ _ H E2) in E1. congruence.
  Qed.
  Lemma eqb_right a b c : eqb a b = true -> eqb c a = eqb c b.
  Proof. intros H. rewrite (eqb_sym c a), (eqb_sym c b). apply eqb_left; auto. Qed.
  Definition val_of (k : K) (m : amap K V) : option V := option_map snd (m_find K V eqb k m).
  Lemma val_set k k' v m : val_of k (m_set K V eqb k' v m) = if eqb k' k then Some v else val_of k m.
  Proof.
    unfold val_of, m_set, m_find. destruct (find (fun e => eqb (fst e) k') m) as [e0|] eqn:Ef.
    - induction m as [|[a b] m IH]; [discriminate|]. cbn [find map fst] in *. destruct (eqb a k') eqn:Ea.
      + clear IH. cbn [fst]. rewrite <- (eqb_left a k' k Ea). destruct (eqb a k) eqn:Eak; [reflexivity|].
        assert (Hk : eqb k' k = false) by (rewrite <- (eqb_left a k' k Ea); auto).
        assert (HX : forall l : list (K * V), find (fun e => eqb (fst e) k) (map (fun e => if eqb (fst e) k' then (k', v) else e) l)
                 = find (fun e => eqb (fst e) k) l).
        { induction l as [|[x y] l IHl]; [reflexivity|]. cbn [map find fst]. destruct (eqb x k') eqn:Ex; cbn [fst].
          - rewrite Hk. rewrite (eqb_left x k' k Ex), Hk. exact IHl.
          - destruct (eqb x k); auto. }
        rewrite HX. reflexivity.
      + cbn [fst]. destruct (eqb a k) eqn:Eak; cbn [option_map snd].
        * destruct (eqb k' k) eqn:Ek; [|reflexivity]. exfalso. rewrite eqb_sym in Ek. rewrite (eqb_trans _ _ _ Eak Ek) in Ea. congruence.
        * apply IH; auto.
    - induction m as [|[a b] m IH]; cbn [find app fst] in *.
      + destruct (eqb k' k); reflexivity.
      + destruct (eqb a k') eqn:Ea; [discriminate|]. destruct (eqb a k) eqn:Eak; cbn [option_map snd].
        * destruct (eqb k' k) eqn:Ek; [|reflexivity]. exfalso. rewrite eqb_sym in Ek. rewrite (eqb_trans _ _ _ Eak Ek) in Ea. congruence.
        * apply IH; auto.
  Qed.
  Lemma val_del k k' m : val_of k (m_del K V eqb k' m) = if eqb k' k then None else val_of k m.
  Proof.
    unfold val_of, m_del, m_find. induction m as [|[a b] m IH]; cbn [filter find fst].
    - destruct (eqb k' k); reflexivity.
    - destruct (eqb a k') eqn:Ea; cbn [negb find fst].
      + rewrite IH, (eqb_left a k' k Ea). destruct (eqb k' k); reflexivity.
      + destruct (eqb a k) eqn:Eak; [|exact IH]. destruct (eqb k' k) eqn:Ek; [|reflexivity].
        exfalso. rewrite eqb_sym in Ek. rewrite (eqb_trans _ _ _ Eak Ek) in Ea. congruence.
  Qed.
  Lemma find_ext' {A} (f g : A -> bool) (H : forall x, f x = g x) l : find f l = find g l.
  Proof. induction l as [|x l IH]; cbn; auto. rewrite H, IH. reflexivity. Qed.
  Lemma m_run_app ops : forall ops' m, snd (m_run K V eqb same m (ops ++ ops')) = snd (m_run K V eqb same (snd (m_run K V eqb same m ops)) ops').
  Proof.
    induction ops as [|o ops IH]; intros ops' m; cbn [app m_run]; [reflexivity|].
    destruct (m_step K V eqb same m o) as [r m1]. specialize (IH ops' m1).
    destruct (m_run K V eqb same m1 (ops ++ ops')) as [rs m2]. destruct (m_run K V eqb same m1 ops) as [rs' m3]. exact IH.
  Qed.
  Lemma val_history k : forall ops, val_of k (snd (m_run K V eqb same [] ops)) = last_val eqb k (rev ops).
  Proof.
    intros ops. induction ops as [|o ops IH] using rev_ind; [reflexivity|]. rewrite m_run_app, rev_app_distr. cbn [rev app].
    set (m := snd (m_run K V eqb same [] ops)) in *. cbn [m_run].
    destruct o as [k' v|k' v|k'|k'|k'|k'| |]; cbn [m_step snd last_val]; try exact IH; try reflexivity.
    - rewrite val_set, IH. reflexivity.
    - rewrite <- IH. destruct (m_find K V eqb k' m) as [e|] eqn:Ef; cbn [snd].
      + destruct (val_of k m) as [v0|] eqn:Ev; [reflexivity|]. destruct (eqb k' k) eqn:Ek; [|reflexivity]. exfalso.
        unfold val_of in Ev. unfold m_find in *. apply find_some in Ef. destruct Ef as [Hin He].
        destruct (find (fun e => eqb (fst e) k) m) eqn:Ef2; [discriminate|]. pose proof (find_none _ _ Ef2 _ Hin) as HN. cbn in HN.
        rewrite (eqb_trans _ _ _ He Ek) in HN. congruence.
      + rewrite val_set. destruct (eqb k' k) eqn:Ek; [|destruct (val_of k m); reflexivity].
        unfold val_of, m_find in *. rewrite (find_ext' (fun e : K * V => eqb (fst e) k) (fun e : K * V => eqb (fst e) k')).
        * rewrite Ef. reflexivity.
        * intros x. apply eqb_right. rewrite eqb_sym; exact Ek.
    - rewrite val_del, IH. reflexivity.
    - rewrite val_del, IH. reflexivity.
  Qed.
End Hist.

Lemma table_is_map (K V : Type) (hash : K -> Z) eqb same by_ptr : key_ok hash eqb same by_ptr ->
  forall ops : list (hop K V), exists h,
  h_run K V eqb same hash by_ptr (h_new K V) ops = Some (fst (m_run K V eqb same [] ops), h) /\
  exists l, h_each K V h = Some l /\ Permutation l (map (fun e => (fst e, Some (snd e))) (snd (m_run K V eqb same [] ops))).
Proof.
  intros [H1 H2 H3 H4 H5 H6 H7] ops.
  destruct (run_ok K V hash eqb same by_ptr H1 H2 H3 H4 H5 H6 H7 ops (h_new K V) [] (new_inv K V hash eqb same by_ptr H7)) as (h & E & HI).
  exists h. split; auto. eapply h_each_ok; eauto.
Qed.
Lemma get_is_last (K V : Type) (hash : K -> Z) eqb same by_ptr : key_ok hash eqb same by_ptr ->
  forall (ops : list (hop K V)) rs h, h_run K V eqb same hash by_ptr (h_new K V) ops = Some (rs, h) ->
  forall k, exists h', h_get K V hash eqb same by_ptr h k = Some (last_val eqb k (rev ops), h').
Proof.
  intros [H1 H2 H3 H4 H5 H6 H7] ops rs h E k.
  destruct (run_ok K V hash eqb same by_ptr H1 H2 H3 H4 H5 H6 H7 ops (h_new K V) [] (new_inv K V hash eqb same by_ptr H7)) as (h0 & E0 & HI).
  rewrite E in E0. apply some_inj in E0. injection E0 as _ <-.
  destruct (op_get_ok K V hash eqb same by_ptr H1 H2 H3 H4 H5 H6 H7 h _ k HI) as (h' & E' & _). rewrite E'.
  exists h'. rewrite <- (val_history K V eqb same H3 H4). reflexivity.
Qed.
Lemma bytes_eqb_eq : forall a b, bytes_eqb a b = true <-> a = b.
Proof.
  induction a as [|x a IH]; intros [|y b]; cbn; split; intros H; try discriminate; auto.
  - apply andb_true_iff in H. destruct H as [H1 H2]. apply Z.eqb_eq in H1. apply IH in H2. congruence.
  - injection H as -> ->. rewrite Z.eqb_refl. apply IH. reflexivity.
Qed.
Lemma str_hash_range : forall s, (0 <= str_hash s < 2 ^ 64)%Z.
Proof.
  intros s. unfold str_hash. assert (H : forall h, (0 <= h < 2 ^ 64)%Z -> (0 <= fold_left (fun h c => (37 * h + c) mod 2 ^ 64)%Z s h < 2 ^ 64)%Z).
  { induction s as [|c s IH]; intros h Hh; cbn [fold_left]; auto. apply IH. apply Z.mod_pos_bound. lia. }
  apply H. lia.
Qed.
Lemma str_keys_ok : key_ok (fun k => str_hash (snd k)) str_eqb str_same false.
Proof.
  unfold str_eqb, str_same. constructor.
  - intros k. apply str_hash_range.
  - intros k. apply bytes_eqb_eq. reflexivity.
  - intros a b. destruct (bytes_eqb (snd a) (snd b)) eqn:E1, (bytes_eqb (snd b) (snd a)) eqn:E2; auto.
    + apply bytes_eqb_eq in E1. symmetry in E1. apply bytes_eqb_eq in E1. congruence.
    + apply bytes_eqb_eq in E2. symmetry in E2. apply bytes_eqb_eq in E2. congruence.
  - intros a b c H1 H2. apply bytes_eqb_eq in H1, H2. apply bytes_eqb_eq. congruence.
  - intros a b H. apply bytes_eqb_eq in H. congruence.
  - intros a b H. apply andb_true_iff in H. apply H.
  - discriminate.
Qed.
