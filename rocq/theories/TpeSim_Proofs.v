(* The phrase scorer on enumerators does what the one on lists of postings (Phrase_Model) does. *)
From Coq Require Import Sorting.Permutation Sorting.Sorted.
From Verif Require Import Util Post_Model Post_Spec PQueue_Model Multi_Model Mte_Model Mtde_Model Expand_Model Expand_Spec Range_Model Range_Spec Range_Proofs Tsc_Model Tsc_Spec Tpe_Model Tpe_Spec Tpe_Proofs TpeAlts_Proofs Phrase_Model Phrase_Spec Phrase_Proofs.
Open Scope Z_scope.

(* ---------- sorting *)
Definition pick {A} (l : list A) (k : nat) : list A := match nth_error l k with Some x => [x] | None => [] end.
Lemma pick_seq {A} (l : list A) : flat_map (pick l) (seq 0 (length l)) = l.
Proof.
  assert (G : forall (m p : list A), flat_map (pick (p ++ m)) (seq (length p) (length m)) = m).
  { induction m as [|a m IH]; intros p; [reflexivity|]. cbn [length seq flat_map]. unfold pick at 1. rewrite nth_error_app2, Nat.sub_diag by lia. cbn [nth_error app]. f_equal. specialize (IH (p ++ [a])). rewrite <- app_assoc, app_length in IH. cbn [length app] in IH. rewrite Nat.add_1_r in IH. exact IH. }
  exact (G l []).
Qed.
Lemma table_cell {A} (cmp : A -> A -> Z) l j k a b : nth_error l j = Some a -> nth_error l k = Some b -> cell (map (fun x => map (cmp x) l) l) j k = cmp a b.
Proof.
  intros H1 H2. unfold cell. rewrite (nth_indep _ _ (map (cmp a) l)) by (rewrite map_length; apply nth_error_Some; congruence). rewrite (map_nth (fun x => map (cmp x) l) l a). rewrite (nth_error_nth l j a H1).
  rewrite (nth_indep _ _ (cmp a b)) by (rewrite map_length; apply nth_error_Some; congruence). rewrite (map_nth (cmp a) l b). rewrite (nth_error_nth l k b H2). reflexivity.
Qed.
Lemma nth_ex {A} (l : list A) k : (k < length l)%nat -> exists a, nth_error l k = Some a.
Proof. intros H. destruct (nth_error l k) as [a|] eqn:E; [eauto|]. apply nth_error_None in E. lia. Qed.
Lemma sort_by_sorts qs : qs_ok qs -> sorts (sort_by qs).
Proof.
  intros HQ cmp Htot Htr l. set (t := map (fun x => map (cmp x) l) l). assert (Hl : length t = length l) by apply map_length. destruct (HQ t) as (P & S1).
  - rewrite Hl. intros j k Hj Hk. destruct (nth_ex l j Hj) as (a & Ha). destruct (nth_ex l k Hk) as (b & Hb). unfold t. rewrite (table_cell cmp l j k a b Ha Hb), (table_cell cmp l k j b a Hb Ha). apply Htot.
  - rewrite Hl. intros j k m Hj Hk Hm. destruct (nth_ex l j Hj) as (a & Ha). destruct (nth_ex l k Hk) as (b & Hb). destruct (nth_ex l m Hm) as (c & Hc). unfold t. rewrite (table_cell cmp l j k a b Ha Hb), (table_cell cmp l k m b c Hb Hc), (table_cell cmp l j m a c Ha Hc). apply Htr.
  - rewrite Hl in P. split.
    + transitivity (flat_map (pick l) (seq 0 (length l))); [rewrite pick_seq; reflexivity|]. apply Permutation_flat_map. exact P.
    + unfold sort_by. fold t. change (fun i => match nth_error l i with Some x => [x] | None => [] end) with (pick l). assert (HB : Forall (fun k => (k < length l)%nat) (qs t)) by (eapply Permutation_Forall; [exact P|]; apply Forall_forall; intros k Hk; apply in_seq in Hk; lia).
      clear P. induction S1 as [|k ks HS IH HF]; [constructor|]. inversion HB as [|? ? B1 B2]; subst. cbn [flat_map]. destruct (nth_ex l k B1) as (a & Ha). unfold pick at 1. rewrite Ha. cbn [app]. constructor; [auto|]. apply Forall_forall. intros b Hb. apply in_flat_map in Hb. destruct Hb as (j & Hj & Hb). unfold pick in Hb. destruct (nth_error l j) as [b'|] eqn:Eb; [|destruct Hb]. destruct Hb as [->|[]]. rewrite Forall_forall in HF. specialize (HF j Hj). unfold t in HF. rewrite (table_cell cmp l k j a b Ha Eb) in HF. exact HF.
Qed.
Ltac splits := repeat match goal with |- _ /\ _ => split end.
Lemma Forall2_length {A B} (R : A -> B -> Prop) l m : Forall2 R l m -> length l = length m.
Proof. induction 1; cbn; congruence. Qed.
Arguments Forall2_length {A B R l m}.
Section F2.
  Variables (A B : Type) (R : A -> B -> Prop).
  Lemma F2_nth l m k b : Forall2 R l m -> nth_error m k = Some b -> exists a, nth_error l k = Some a /\ R a b.
  Proof. intros H. revert k. induction H as [|x y0 l m HR H IH]; intros [|k] E; cbn in *; try discriminate; [apply some_inj in E; subst; eauto|auto]. Qed.
  Lemma F2_none l m k : Forall2 R l m -> nth_error m k = None -> nth_error l k = None.
  Proof. intros H E. apply nth_error_None. apply nth_error_None in E. rewrite (Forall2_length H). exact E. Qed.
  Lemma F2_upd l m k a b : Forall2 R l m -> R a b -> Forall2 R (upd l k a) (upd m k b).
  Proof. intros H HR. revert k. induction H as [|x y0 l m HR0 H IH]; intros [|k]; cbn; constructor; auto. Qed.
  Lemma F2_app l m l' m' : Forall2 R l m -> Forall2 R l' m' -> Forall2 R (l ++ l') (m ++ m').
  Proof. apply Forall2_app. Qed.
  Lemma F2_sort qs (ca : A -> A -> Z) (cb : B -> B -> Z) l m : (forall a b a' b', R a b -> R a' b' -> ca a a' = cb b b') -> Forall2 R l m -> Forall2 R (sort_by qs ca l) (sort_by qs cb m).
  Proof.
    intros Hc H. unfold sort_by. assert (E : forall l' m', Forall2 R l' m' -> map (fun a => map (ca a) l) l' = map (fun b => map (cb b) m) m').
    { induction 1 as [|x y0 l' m' HR H' IH]; [reflexivity|]. cbn [map]. f_equal; [|exact IH]. clear IH H'. induction H as [|x2 y2 l m HR2 H IH]; [reflexivity|]. cbn [map]. f_equal; auto. }
    rewrite (E l m H). induction (qs _) as [|k ks IH]; [constructor|]. cbn [flat_map]. apply F2_app; [|exact IH]. destruct (nth_error m k) as [b|] eqn:Eb; [destruct (F2_nth l m k b H Eb) as (a & -> & HR); auto|rewrite (F2_none l m k H Eb); constructor].
  Qed.
End F2.
Arguments F2_nth {A B R}. Arguments F2_upd {A B R}. Arguments F2_sort {A B R}.
Lemma from_from_doc k l : Tsc_Spec.from k l = from_doc k l.
Proof. induction l as [|x l IH]; [reflexivity|]. cbn. destruct (fst x <? k); auto. Qed.

(* ---------- the simulation *)
Section SIM.
  Variables (i : pidx) (r : prdr) (y : idx) (del : Z -> bool) (qs : list (list Z) -> list nat).
  Hypothesis HD : dicts i r y.
  Notation TP := (TP i r y del).
  Definition Rpp (c : cpp) (a : pp) : Prop :=
    c_off c = p_off a /\ c_cnt c = p_cnt a /\ c_doc c = p_doc a /\ c_pos c = p_pos a /\
    match c_tpe c with Some e => p_open a = true /\ TP e (p_rest a) (p_left a) /\ c_freq c = Z.of_nat (length (p_all a)) | None => p_open a = false end.
  Notation RL := (Forall2 Rpp).
  Lemma sim_pos c a b a' : Rpp c a -> pp_next_position a = Some (b, a') -> exists c', cpp_next_position r c = Some (b, c') /\ Rpp c' a'.
  Proof.
    intros (E1 & E2 & E3 & E4 & HE) H. unfold pp_next_position in H. unfold cpp_next_position. rewrite E2. cbv zeta in *. destruct (0 <=? p_cnt a - 1) eqn:Ec.
    - destruct (p_left a) as [|x t] eqn:El; [discriminate|]. destruct (p_open a) eqn:Eo; [|discriminate]. apply some_inj in H. apply pair_equal_spec in H. destruct H as (<- & <-). destruct (c_tpe c) as [e|]; [|discriminate]. destruct HE as (_ & HT & Hf). destruct (tp_pos_ok i r y del HD e _ x t HT) as (e' & E & HT'). cbn [obind]. rewrite E. cbn [obind fst snd]. eexists. split; [reflexivity|].
      unfold Rpp. cbn. rewrite E1, E3. splits; auto.
    - apply some_inj in H. apply pair_equal_spec in H. destruct H as (<- & <-). eexists. split; [reflexivity|]. unfold Rpp. cbn. splits; auto.
  Qed.
  Lemma sim_first c a b a' : Rpp c a -> pp_first_position a = Some (b, a') -> exists c', cpp_first_position r c = Some (b, c') /\ Rpp c' a'.
  Proof.
    intros (E1 & E2 & E3 & E4 & HE) H. unfold pp_first_position in H. unfold cpp_first_position. destruct (p_open a) eqn:Eo; [|discriminate]. destruct (c_tpe c) as [e|] eqn:Et; [|discriminate]. destruct HE as (_ & HT & Hf). cbn [obind]. refine (sim_pos _ _ _ _ _ H). unfold Rpp. cbn. splits; auto.
  Qed.
  Lemma sim_move op c a b a' : Rpp c a -> pp_move op a = Some (b, a') -> exists c', cpp_move r del op c = Some (b, c') /\ Rpp c' a'.
  Proof.
    intros (E1 & E2 & E3 & E4 & HE) H. unfold pp_move in H. unfold cpp_move. destruct (p_open a) eqn:Eo; [|discriminate]. destruct (c_tpe c) as [e|] eqn:Et; [|discriminate]. destruct HE as (_ & HT & Hf). cbn [obind].
    assert (EX : exists z e', match op with None => tpe_next r del e | Some d => tpe_skip r del d e end = Some (z, e') /\ tmet i r y del (match op with None => p_rest a | Some d => from_doc d (p_rest a) end) z e').
    { destruct op as [d|]; [rewrite <- from_from_doc; apply (tp_skip_ok i r y del HD d e _ _ HT)|apply (tp_next_ok i r y del HD e _ _ HT)]. }
    destruct EX as (z & e' & E & HM). rewrite E. cbn [obind fst snd]. destruct (match op with None => p_rest a | Some d => from_doc d (p_rest a) end) as [|(d & ps) t]; cbn [tmet] in HM; cbn [pp_enter] in H.
    - subst z. apply some_inj in H. apply pair_equal_spec in H. destruct H as (<- & <-). eexists. split; [reflexivity|]. unfold Rpp. cbn. splits; auto.
    - destruct HM as (-> & HM). apply some_inj in H. apply pair_equal_spec in H. destruct H as (<- & <-). eexists. split; [reflexivity|]. unfold Rpp. cbn. splits; auto.
  Qed.
  Lemma sim_cmp c a c' a' : Rpp c a -> Rpp c' a' -> cpp_cmp c c' = pp_cmp a a'.
  Proof. intros (_ & _ & E3 & E4 & _) (_ & _ & F3 & F4 & _). unfold cpp_cmp, pp_cmp. rewrite E3, E4, F3, F4. reflexivity. Qed.
  Lemma sim_pos_cmp c a c' a' : Rpp c a -> Rpp c' a' -> cpp_pos_cmp c c' = pp_pos_cmp a a'.
  Proof. intros (_ & _ & E3 & E4 & _) (_ & _ & F3 & F4 & _). unfold cpp_pos_cmp, pp_pos_cmp. rewrite E4, F4. reflexivity. Qed.
  Lemma sim_first_all lc la la' : RL lc la -> first_all la = Some la' -> exists lc', c_first_all r lc = Some lc' /\ RL lc' la'.
  Proof.
    intros H. revert la'. induction H as [|c a lc la HR H IH]; intros la' E; cbn [first_all c_first_all] in *; [apply some_inj in E; subst; eexists; split; [reflexivity|constructor]|].
    destruct (pp_first_position a) as [(b & a1)|] eqn:E1; cbn [obind] in E; [|discriminate]. destruct (sim_first _ _ _ _ HR E1) as (c1 & F1 & R1). rewrite F1. cbn [obind snd] in *. destruct (first_all la) as [la1|]; cbn [obind] in E; [|discriminate]. destruct (IH _ eq_refl) as (lc1 & F2 & R2). rewrite F2. cbn [obind]. apply some_inj in E. subst. eexists. split; [reflexivity|]. constructor; auto.
  Qed.
  Lemma sim_catch fuel : forall c a k b a', Rpp c a -> catch_up fuel a k = Some (b, a') -> exists c', c_catch_up r fuel c k = Some (b, c') /\ Rpp c' a'.
  Proof.
    induction fuel as [|fuel IH]; intros c a k b a' HR E; cbn [catch_up c_catch_up] in *; [discriminate|]. destruct (pp_next_position a) as [(b1 & a1)|] eqn:E1; cbn [obind fst snd] in E; [|discriminate]. destruct (sim_pos _ _ _ _ HR E1) as (c1 & F1 & R1). rewrite F1. cbn [obind fst snd]. pose proof R1 as (_ & _ & _ & EP & _). rewrite EP. destruct b1.
    - destruct (p_pos a1 <? k); [apply (IH _ _ _ _ _ R1 E)|]. apply some_inj in E. apply pair_equal_spec in E. destruct E as (<- & <-). eauto.
    - apply some_inj in E. apply pair_equal_spec in E. destruct E as (<- & <-). eauto.
  Qed.
  Lemma sim_scan fuel : forall fr idx li lc la fr' idx' la', RL lc la -> scan fuel fr idx li la = Some (fr', idx', la') -> exists lc', c_scan r fuel fr idx li lc = Some (fr', idx', lc') /\ RL lc' la'.
  Proof.
    induction fuel as [|fuel IH]; intros fr idx li lc la fr' idx' la' HR E; cbn [scan c_scan] in *; [discriminate|]. destruct (nth_error la idx) as [a|] eqn:Ea; cbn [obind] in E; [|discriminate]. destruct (nth_error la li) as [b|] eqn:Eb; cbn [obind] in E; [|discriminate].
    destruct (F2_nth _ _ _ _ HR Ea) as (c & Fc & Rc). destruct (F2_nth _ _ _ _ HR Eb) as (d & Fd & Rd). rewrite Fc, Fd. cbn [obind]. pose proof Rc as (_ & _ & _ & EP1 & _). pose proof Rd as (_ & _ & _ & EP2 & _). rewrite EP1, EP2, (Forall2_length HR). cbv zeta in *. destruct (p_pos a <? p_pos b).
    - destruct (catch_up fuel a (p_pos b)) as [(z & a1)|] eqn:E1; cbn [obind fst snd] in E; [|discriminate]. destruct (sim_catch _ _ _ _ _ _ Rc E1) as (c1 & F1 & R1). rewrite F1. cbn [obind fst snd]. pose proof (F2_upd _ _ idx _ _ HR R1) as HR'. destruct z; [apply (IH _ _ _ _ _ _ _ _ HR' E)|]. apply some_inj in E. apply pair_equal_spec in E. destruct E as (E & <-). apply pair_equal_spec in E. destruct E as (<- & <-). eauto.
    - destruct (pp_next_position b) as [(z & b1)|] eqn:E1; cbn [obind fst snd] in E; [|discriminate]. destruct (sim_pos _ _ _ _ Rd E1) as (d1 & F1 & R1). rewrite F1. cbn [obind fst snd]. pose proof (F2_upd _ _ li _ _ HR R1) as HR'. destruct z; [apply (IH _ _ _ _ _ _ _ _ HR' E)|]. apply some_inj in E. apply pair_equal_spec in E. destruct E as (E & <-). apply pair_equal_spec in E. destruct E as (<- & <-). eauto.
  Qed.
  Lemma sim_freq fuel idx lc la fr' idx' la' : RL lc la -> ephsc_phrase_freq (sort_by qs) fuel idx la = Some (fr', idx', la') -> exists lc', c_phrase_freq r qs fuel lc = Some (fr', idx', lc') /\ RL lc' la'.
  Proof.
    intros HR E. unfold ephsc_phrase_freq in E. unfold c_phrase_freq. destruct (first_all la) as [la1|] eqn:E1; cbn [obind] in E; [|discriminate]. destruct (sim_first_all _ _ _ HR E1) as (lc1 & F1 & R1). rewrite F1. cbn [obind]. cbv zeta in *. pose proof (F2_sort qs cpp_pos_cmp pp_pos_cmp _ _ sim_pos_cmp R1) as R2. rewrite (Forall2_length R2). apply (sim_scan _ _ _ _ _ _ _ _ _ R2 E).
  Qed.
  (* sloppy phrases *)
  Lemma sim_less lc la : RL lc la -> cpp_less lc = pp_less la.
  Proof. intros H. unfold cpp_less, pp_less. f_equal. induction H as [|c a lc la HR H IH]; [reflexivity|]. cbn [map]. destruct HR as (E1 & _ & _ & E4 & _). rewrite E1, E4, IH. reflexivity. Qed.
  Lemma sim_check fuel : forall k j n lc la b la', RL lc la -> check_repeats fuel k j n la = Some (b, la') -> exists lc', c_check_repeats r fuel k j n lc = Some (b, lc') /\ RL lc' la'.
  Proof.
    induction fuel as [|fuel IH]; intros k j n lc la b la' HR E; cbn [check_repeats c_check_repeats] in *; [discriminate|]. destruct (j <? n)%nat; [|apply some_inj in E; apply pair_equal_spec in E; destruct E as (<- & <-); eauto].
    destruct (nth_error la j) as [a|] eqn:Ea; cbn [obind] in E; [|discriminate]. destruct (nth_error la k) as [a2|] eqn:Eb; cbn [obind] in E; [|discriminate]. destruct (F2_nth _ _ _ _ HR Ea) as (c & Fc & Rc). destruct (F2_nth _ _ _ _ HR Eb) as (d & Fd & Rd). rewrite Fc, Fd. cbn [obind]. pose proof Rc as (O1 & _ & _ & P1 & _). pose proof Rd as (O2 & _ & _ & P2 & _). rewrite O1, O2, P1, P2. cbv zeta in *.
    destruct (p_off a =? p_off a2); [apply (IH _ _ _ _ _ _ _ HR E)|]. destruct (p_pos a + p_off a =? p_pos a2 + p_off a2); [|apply (IH _ _ _ _ _ _ _ HR E)].
    destruct (pp_next_position a2) as [(z & a3)|] eqn:E1; cbn [obind fst snd] in E; [|discriminate]. destruct (sim_pos _ _ _ _ Rd E1) as (d1 & F1 & R1). rewrite F1. cbn [obind fst snd]. pose proof (F2_upd _ _ k _ _ HR R1) as HR'. destruct z; [apply (IH _ _ _ _ _ _ _ HR' E)|]. apply some_inj in E. apply pair_equal_spec in E. destruct E as (<- & <-). eauto.
  Qed.
  Lemma sim_sfirst fuel chk n : forall k lc la q lp x la', RL lc la -> sloppy_first fuel chk k n la q lp = Some (x, la') -> exists lc', c_sloppy_first r fuel chk k n lc q lp = Some (x, lc') /\ RL lc' la'.
  Proof.
    induction n as [|n IH]; intros k lc la q lp x la' HR E; cbn [sloppy_first c_sloppy_first] in *; [apply some_inj in E; apply pair_equal_spec in E; destruct E as (<- & <-); eauto|].
    destruct (nth_error la k) as [a|] eqn:Ea; cbn [obind] in E; [|discriminate]. destruct (F2_nth _ _ _ _ HR Ea) as (c & Fc & Rc). rewrite Fc. cbn [obind]. destruct (pp_first_position a) as [(z & a1)|] eqn:E1; cbn [obind fst snd] in E; [|discriminate]. destruct (sim_first _ _ _ _ Rc E1) as (c1 & F1 & R1). rewrite F1. cbn [obind fst snd]. cbv zeta in *. destruct z; [|discriminate]. pose proof (F2_upd _ _ k _ _ HR R1) as HR'.
    destruct (if chk && (0 <? k)%nat then check_repeats fuel k 0 (k - 1) (upd la k a1) else Some (true, upd la k a1)) as [(z2 & la2)|] eqn:E2; cbn [obind fst snd] in E; [|discriminate].
    assert (G : exists lc2, (if chk && (0 <? k)%nat then c_check_repeats r fuel k 0 (k - 1) (upd lc k c1) else Some (true, upd lc k c1)) = Some (z2, lc2) /\ RL lc2 la2).
    { destruct (chk && (0 <? k)%nat); [apply (sim_check _ _ _ _ _ _ _ _ HR' E2)|]. apply some_inj in E2. apply pair_equal_spec in E2. destruct E2 as (<- & <-). eauto. }
    destruct G as (lc2 & F2 & R2). rewrite F2. cbn [obind fst snd]. destruct z2; [|apply some_inj in E; apply pair_equal_spec in E; destruct E as (<- & <-); eauto]. destruct (nth_error la2 k) as [a2|] eqn:Ea2; cbn [obind] in E; [|discriminate]. destruct (F2_nth _ _ _ _ R2 Ea2) as (c2 & Fc2 & Rc2). rewrite Fc2. cbn [obind]. rewrite (sim_less _ _ R2). destruct (pq_push nat (pp_less la2) q k) as [q1|]; cbn [obind] in *; [|discriminate]. pose proof Rc2 as (_ & _ & _ & P2 & _). rewrite P2. apply (IH _ _ _ _ _ _ _ R2 E).
  Qed.
  Lemma sim_window fuel chk : forall k np pos st lc la b z la', RL lc la -> window fuel chk k np pos st la = Some (b, z, la') -> exists lc', c_window r fuel chk k np pos st lc = Some (b, z, lc') /\ RL lc' la'.
  Proof.
    induction fuel as [|fuel IH]; intros k np pos st lc la b z la' HR E; cbn [window c_window] in *; [discriminate|]. destruct (pos <=? np); [|apply some_inj in E; apply pair_equal_spec in E; destruct E as (E & <-); rewrite E; eauto].
    destruct (nth_error la k) as [a|] eqn:Ea; cbn [obind] in E; [|discriminate]. destruct (F2_nth _ _ _ _ HR Ea) as (c & Fc & Rc). rewrite Fc. cbn [obind]. destruct (pp_next_position a) as [(z1 & a1)|] eqn:E1; cbn [obind fst snd] in E; [|discriminate]. destruct (sim_pos _ _ _ _ Rc E1) as (c1 & F1 & R1). rewrite F1. cbn [obind fst snd]. cbv zeta in *. pose proof (F2_upd _ _ k _ _ HR R1) as HR'. destruct z1; [|apply some_inj in E; apply pair_equal_spec in E; destruct E as (E & <-); rewrite E; eauto].
    rewrite (Forall2_length HR). destruct (if chk then check_repeats fuel k 0 (length la) (upd la k a1) else Some (true, upd la k a1)) as [(z2 & la2)|] eqn:E2; cbn [obind fst snd] in E; [|discriminate].
    assert (G : exists lc2, (if chk then c_check_repeats r fuel k 0 (length la) (upd lc k c1) else Some (true, upd lc k c1)) = Some (z2, lc2) /\ RL lc2 la2).
    { destruct chk; [apply (sim_check _ _ _ _ _ _ _ _ HR' E2)|]. apply some_inj in E2. apply pair_equal_spec in E2. destruct E2 as (<- & <-). eauto. }
    destruct G as (lc2 & F2 & R2). rewrite F2. cbn [obind fst snd]. destruct z2; [|apply some_inj in E; apply pair_equal_spec in E; destruct E as (E & <-); rewrite E; eauto]. destruct (nth_error la2 k) as [a2|] eqn:Ea2; cbn [obind] in E; [|discriminate]. destruct (F2_nth _ _ _ _ R2 Ea2) as (c2 & Fc2 & Rc2). rewrite Fc2. cbn [obind]. pose proof Rc2 as (_ & _ & _ & P2 & _). rewrite P2. apply (IH _ _ _ _ _ _ _ _ _ R2 E).
  Qed.
  Lemma sim_loop fuel chk slop : forall lp lens lc la q x la', RL lc la -> sloppy_loop fuel chk slop lp lens la q = Some (x, la') -> exists lc', c_sloppy_loop r fuel chk slop lp lens lc q = Some (x, lc') /\ RL lc' la'.
  Proof.
    induction fuel as [|fuel IH]; intros lp lens lc la q x la' HR E; cbn [sloppy_loop c_sloppy_loop] in *; [discriminate|]. rewrite (sim_less _ _ HR). destruct (pq_pop nat (pp_less la) q) as [(k0 & q1)|]; cbn [obind fst snd] in *; [|discriminate]. destruct k0 as [k|]; cbn [obind] in *; [|discriminate].
    destruct (nth_error la k) as [a|] eqn:Ea; cbn [obind] in E; [|discriminate]. destruct (F2_nth _ _ _ _ HR Ea) as (c & Fc & Rc). rewrite Fc. cbn [obind]. match type of E with context [obind ?z _] => match z with obind (pq_top nat q1) _ => destruct z as [t|]; cbn [obind] in *; [|discriminate] end end.
    destruct (nth_error la t) as [a2|] eqn:Eb; cbn [obind] in E; [|discriminate]. destruct (F2_nth _ _ _ _ HR Eb) as (d & Fd & Rd). rewrite Fd. cbn [obind]. pose proof Rc as (_ & _ & _ & P1 & _). pose proof Rd as (_ & _ & _ & P2 & _). rewrite P1, P2.
    destruct (window fuel chk k (p_pos a2) (p_pos a) (p_pos a) la) as [((dn & st) & la1)|] eqn:E1; cbn [obind] in E; [|discriminate]. destruct (sim_window _ _ _ _ _ _ _ _ _ _ _ HR E1) as (lc1 & F1 & R1). rewrite F1. cbn [obind]. cbv zeta in *. destruct (nth_error la1 k) as [a3|] eqn:Ea3; cbn [obind] in E; [|discriminate]. destruct (F2_nth _ _ _ _ R1 Ea3) as (c3 & Fc3 & Rc3). rewrite Fc3. cbn [obind]. rewrite (sim_less _ _ R1). destruct (pq_push nat (pp_less la1) q1 k) as [q2|]; cbn [obind] in *; [|discriminate]. pose proof Rc3 as (_ & _ & _ & P3 & _). rewrite P3. destruct dn; [|apply (IH _ _ _ _ _ _ _ R1 E)]. apply some_inj in E. apply pair_equal_spec in E. destruct E as (<- & <-). eauto.
  Qed.
  Lemma sim_matches fuel chk slop lc la x la' : RL lc la -> sphsc_matches fuel chk slop la = Some (x, la') -> exists lc', c_matches r fuel chk slop lc = Some (x, lc') /\ RL lc' la'.
  Proof.
    intros HR E. unfold sphsc_matches in E. unfold c_matches. rewrite (Forall2_length HR). destruct (sloppy_first fuel chk 0 (length la) la (pq_new nat (length la)) 0) as [(z & la1)|] eqn:E1; cbn [obind fst snd] in E; [|discriminate]. destruct (sim_sfirst _ _ _ _ _ _ _ _ _ _ HR E1) as (lc1 & F1 & R1). rewrite F1. cbn [obind fst snd]. destruct z as [(q & lp)|]; [apply (sim_loop _ _ _ _ _ _ _ _ _ _ R1 E)|]. apply some_inj in E. apply pair_equal_spec in E. destruct E as (<- & <-). eauto.
  Qed.
  Definition pf_of (slop : Z) (chk : bool) : nat -> nat -> list pp -> option (Z * nat * list pp) := if slop =? 0 then ephsc_phrase_freq (sort_by qs) else sloppy_freq chk slop.
  Lemma sim_pf slop chk fuel idx lc la fr' idx' la' : RL lc la -> pf_of slop chk fuel idx la = Some (fr', idx', la') -> exists lc', c_freq_of r qs slop chk fuel idx lc = Some (fr', idx', lc') /\ RL lc' la'.
  Proof.
    intros HR E. unfold pf_of in E. unfold c_freq_of. destruct (slop =? 0); [apply (sim_freq _ _ _ _ _ _ _ HR E)|]. unfold sloppy_freq in E. destruct (sphsc_matches fuel chk slop la) as [(x & la1)|] eqn:E1; cbn [obind fst snd] in E; [|discriminate]. destruct (sim_matches _ _ _ _ _ _ _ HR E1) as (lc1 & F1 & R1). rewrite F1. cbn [obind fst snd]. apply some_inj in E. apply pair_equal_spec in E. destruct E as (E & <-). rewrite E. eauto.
  Qed.
  Lemma sim_move_all op lc la b la' : RL lc la -> move_all op la = Some (b, la') -> exists lc', c_move_all r del op lc = Some (b, lc') /\ RL lc' la'.
  Proof.
    intros H. revert b la'. induction H as [|c a lc la HR H IH]; intros b la' E; cbn [move_all c_move_all] in *; [apply some_inj in E; apply pair_equal_spec in E; destruct E as (<- & <-); eexists; split; [reflexivity|constructor]|].
    destruct (move_all op la) as [(b1 & la1)|]; cbn [obind fst snd] in E; [|discriminate]. destruct (IH _ _ eq_refl) as (lc1 & F1 & R1). rewrite F1. cbn [obind fst snd]. destruct b1.
    - destruct (pp_move op a) as [(b2 & a2)|] eqn:E2; cbn [obind fst snd] in E; [|discriminate]. destruct (sim_move _ _ _ _ _ HR E2) as (c2 & F2 & R2). rewrite F2. cbn [obind fst snd]. apply some_inj in E. apply pair_equal_spec in E. destruct E as (<- & <-). eexists. split; [reflexivity|]. constructor; auto.
    - apply some_inj in E. apply pair_equal_spec in E. destruct E as (<- & <-). eexists. split; [reflexivity|]. constructor; auto.
  Qed.
  Variables (slop : Z) (chk : bool).
  Definition Rsc (s : csc) (a : phsc) : Prop := s_slop s = slop /\ s_chk s = chk /\ s_doc s = h_doc a /\ s_freq s = h_freq a /\ RL (s_pos s) (h_pos a) /\ s_idx s = h_idx a /\ s_first s = h_first a /\ s_more s = h_more a.
  Lemma sim_do_next fuel : forall fr doc hi more idx li lc la b s', RL lc la -> do_next (pf_of slop chk) fuel fr doc hi more idx li la = Some (b, s') ->
    exists c', c_do_next r del qs slop chk fuel fr doc hi more idx li lc = Some (b, c') /\ Rsc c' s'.
  Proof.
    induction fuel as [|fuel IH]; intros fr doc hi more idx li lc la b s' HR E; cbn [do_next c_do_next] in *; [discriminate|]. destruct more.
    - destruct (nth_error la idx) as [a|] eqn:Ea; cbn [obind] in E; [|discriminate]. destruct (nth_error la li) as [a2|] eqn:Eb; cbn [obind] in E; [|discriminate].
      destruct (F2_nth _ _ _ _ HR Ea) as (c & Fc & Rc). destruct (F2_nth _ _ _ _ HR Eb) as (d & Fd & Rd). rewrite Fc, Fd. cbn [obind]. pose proof Rc as (_ & _ & ED1 & _). pose proof Rd as (_ & _ & ED2 & _). rewrite ED1, ED2, (Forall2_length HR). destruct (p_doc a <? p_doc a2).
      + destruct (pp_move (Some (p_doc a2)) a) as [(z & a1)|] eqn:E1; cbn [obind fst snd] in E; [|discriminate]. destruct (sim_move _ _ _ _ _ Rc E1) as (c1 & F1 & R1). rewrite F1. cbn [obind fst snd]. apply (IH _ _ _ _ _ _ _ _ _ _ (F2_upd _ _ idx _ _ HR R1) E).
      + destruct (pf_of slop chk fuel idx la) as [((fr1 & idx1) & la1)|] eqn:E1; cbn [obind] in E; [|discriminate]. destruct (sim_pf _ _ _ _ _ _ _ _ _ HR E1) as (lc1 & F1 & R1). rewrite F1. cbn [obind]. cbv zeta in *. destruct (fr1 =? 0).
        * change (prv idx1 (length la)) with (prev_num idx1 (length la)). destruct (nth_error la1 (prev_num idx1 (length la))) as [a3|] eqn:Ea3; cbn [obind] in E; [|discriminate]. destruct (F2_nth _ _ _ _ R1 Ea3) as (c3 & Fc3 & Rc3). rewrite Fc3. cbn [obind].
          destruct (pp_move None a3) as [(z & a4)|] eqn:E4; cbn [obind fst snd] in E; [|discriminate]. destruct (sim_move _ _ _ _ _ Rc3 E4) as (c4 & F4 & R4). rewrite F4. cbn [obind fst snd]. apply (IH _ _ _ _ _ _ _ _ _ _ (F2_upd _ _ _ _ _ R1 R4) E).
        * apply some_inj in E. apply pair_equal_spec in E. destruct E as (<- & <-). eexists. split; [reflexivity|]. unfold Rsc. cbn. splits; auto.
    - apply some_inj in E. apply pair_equal_spec in E. destruct E as (<- & <-). eexists. split; [reflexivity|]. unfold Rsc. cbn. splits; auto.
  Qed.
  Definition run_of (fuel : nat) (op : option Z) (a : phsc) : option (bool * phsc) := phsc_run (sort_by qs) (pf_of slop chk) fuel op a.
  Lemma sim_run fuel op s a b a' : Rsc s a -> run_of fuel op a = Some (b, a') -> exists s', csc_run r del qs fuel op s = Some (b, s') /\ Rsc s' a'.
  Proof.
    intros (E7 & E8 & E1 & E2 & HR & E4 & E5 & E6) E. unfold run_of, phsc_run, start in E. unfold csc_run, c_start. rewrite E7, E8, E1, E2, E4, E5, E6, (Forall2_length HR). destruct op as [d|].
    - destruct (move_all (Some d) (h_pos a)) as [(z & la)|] eqn:EM; cbn [obind fst snd] in E; [|discriminate]. destruct (sim_move_all _ _ _ _ _ HR EM) as (lc & F1 & R1). rewrite F1. cbn [obind fst snd].
      assert (R2 : RL (if z then sort_by qs cpp_cmp lc else lc) (if z then sort_by qs pp_cmp la else la)) by (destruct z; [apply F2_sort; [exact sim_cmp|exact R1]|exact R1]). rewrite (Forall2_length R2). change prv with prev_num.
      destruct (do_next _ _ _ _ _ _ _ _ _) as [(z2 & s2)|] eqn:E3; cbn [obind fst snd] in E; [|discriminate]. destruct (sim_do_next _ _ _ _ _ _ _ _ _ _ _ R2 E3) as (c2 & F2 & (Q7 & Q8 & Q1 & Q2 & Q3 & Q4 & Q5 & Q6)). rewrite F2. cbn [obind fst snd]. apply some_inj in E. apply pair_equal_spec in E. destruct E as (<- & <-). eexists. split; [reflexivity|]. unfold Rsc. cbn. splits; auto.
    - destruct (h_first a).
      + destruct (move_all None (h_pos a)) as [(z & la)|] eqn:EM; cbn [obind fst snd] in E; [|discriminate]. destruct (sim_move_all _ _ _ _ _ HR EM) as (lc & F1 & R1). rewrite F1. cbn [obind fst snd].
        assert (R2 : RL (if z then sort_by qs cpp_cmp lc else lc) (if z then sort_by qs pp_cmp la else la)) by (destruct z; [apply F2_sort; [exact sim_cmp|exact R1]|exact R1]). rewrite (Forall2_length R2). change prv with prev_num. apply (sim_do_next _ _ _ _ _ _ _ _ _ _ _ R2 E).
      + change prv with prev_num in *. destruct (h_more a).
        * cbv zeta in *. destruct (nth_error (h_pos a) (prev_num (h_idx a) (length (h_pos a)))) as [p|] eqn:Ep; cbn [obind] in E; [|discriminate]. destruct (F2_nth _ _ _ _ HR Ep) as (c & Fc & Rc). rewrite Fc. cbn [obind]. destruct (pp_move None p) as [(z & p1)|] eqn:E3; cbn [obind fst snd] in E; [|discriminate]. destruct (sim_move _ _ _ _ _ Rc E3) as (c1 & F1 & R1). rewrite F1. cbn [obind fst snd].
          pose proof (F2_upd _ _ (prev_num (h_idx a) (length (h_pos a))) _ _ HR R1) as R2. rewrite (Forall2_length R2). apply (sim_do_next _ _ _ _ _ _ _ _ _ _ _ R2 E).
        * apply (sim_do_next _ _ _ _ _ _ _ _ _ _ _ HR E).
  Qed.
  (* opening *)
  Lemma open_sim f : pidx_field i f -> (forall t, pinc (plook i f t)) -> forall ps t, tir_used r t -> exists ph lc t', open_all r del t f ps = Some (lc, t') /\ tir_used r t' /\ RL lc (h_pos (phsc_new ph)) /\
    Forall2 (fun p (x : Z * list (Z * list Z)) => fst x = fst p /\ pos_list i del f (snd p) (snd x)) ps ph.
  Proof.
    intros Hf Hinc. induction ps as [|(o & ts) ps IH]; intros t U; cbn [open_all]; [exists [], [], t; splits; auto; constructor|]. destruct (tp_open_ok i r y del HD t f ts U Hf Hinc) as (L & e & t1 & HL & E & U1 & HT). rewrite E. cbn [obind fst snd]. destruct (IH t1 U1) as (ph & lc & t2 & E2 & U2 & R2 & HP). rewrite E2. cbn [obind fst snd].
    exists ((o, L) :: ph), (cpp_new e o :: lc), t2. splits; auto. unfold phsc_new in *. cbn [h_pos map fst snd] in *. constructor; [|exact R2]. unfold Rpp, cpp_new, pp_new. cbn. splits; auto.
  Qed.
End SIM.
