(* the values of explanations *)
From Coq Require Import QArith.Qcanon Sorting.Sorted.
From Verif Require Import Util PQueue_Model Query_Model Rank_Model Rank_Spec Rank_Proofs RankQuery_Proofs.
Open Scope Z_scope.
Lemma pos_mult a b : (0 < a)%Qc -> (0 < b)%Qc -> (0 < a * b)%Qc.
Proof. intros Ha Hb. rewrite <- (Qcmult_0_l b). apply Qcmult_lt_compat_r; assumption. Qed.
Lemma pos_plus a b : (0 <= a)%Qc -> (0 < b)%Qc -> (0 < a + b)%Qc.
Proof. intros Ha Hb. apply Qclt_le_trans with b; [exact Hb|]. rewrite <- (Qcplus_0_l b) at 1. apply Qcplus_le_compat; [exact Ha|apply Qcle_refl]. Qed.
Lemma nn_plus a b : (0 <= a)%Qc -> (0 <= b)%Qc -> (0 <= a + b)%Qc.
Proof. intros Ha Hb. rewrite <- (Qcplus_0_l 0). apply Qcplus_le_compat; assumption. Qed.
Lemma positive_spec x : positive x = true <-> (0 < x)%Qc.
Proof. unfold positive. rewrite Qclt_alt. destruct (0 ?= x)%Qc; split; intros; try discriminate; reflexivity. Qed.
Lemma positive_0 : positive 0 = false.
Proof. reflexivity. Qed.
Lemma nn_sum l : Forall (fun x => 0 <= x)%Qc l -> (0 <= Qcsum l)%Qc.
Proof. induction 1 as [|x l H HF IH]; [apply Qcle_refl|apply nn_plus; assumption]. Qed.
Lemma sum_zero l : Forall (fun x => 0 <= x)%Qc l -> Qcsum l = 0%Qc -> Forall (fun x => x = 0%Qc) l.
Proof.
  induction 1 as [|x l H HF IH]; intros E; [constructor|]. change (Qcsum (x :: l)) with (x + Qcsum l)%Qc in E. pose proof (nn_sum l HF) as Hs.
  assert (Ex : x = 0%Qc). { apply Qcle_antisym; [|exact H]. rewrite <- E. rewrite <- (Qcplus_0_r x) at 1. apply Qcplus_le_compat; [apply Qcle_refl|exact Hs]. }
  constructor; [exact Ex|]. apply IH. subst x. rewrite Qcplus_0_l in E. exact E.
Qed.
Lemma nn_lt x : (0 < x)%Qc -> (0 <= x)%Qc.
Proof. apply Qclt_le_weak. Qed.
Lemma fair_bool b nc cs : fair_query (RBool b nc cs) -> (0 < b)%Qc /\ forall c, In c cs -> fair_query (snd c).
Proof. cbn [fair_query]. intros (Hb & H). split; [exact Hb|]. induction cs as [|(o, q) cs IH]; intros c Hc; [destruct Hc|]. destruct H as (H1 & H2). destruct Hc as [<-|Hc]; [exact H1|apply IH; assumption]. Qed.
Lemma squares_nn : forall q, fair_query q -> (0 <= squares q)%Qc.
Proof.
  induction q as [b i l|b nc cs IH] using rquery_ind2; intros H.
  - destruct H as (Hb & Hl). cbn [squares]. assert (Hi : (0 < idf_of i l)%Qc) by (destruct l as [[l|] nm| |]; cbn [idf_of leaf_fair] in *; [apply Hl|destruct Hl|reflexivity|reflexivity]). apply nn_lt. apply pos_mult; apply pos_mult; assumption.
  - destruct (fair_bool b nc cs H) as (Hb & Hc). cbn [squares]. rewrite Forall_forall in IH. assert (Hs : (0 <= Qcsum (map (fun c : occur * rquery => match fst c with MustNot => 0 | _ => squares (snd c) end) cs))%Qc).
    { apply nn_sum. apply Forall_forall. intros x Hx. apply in_map_iff in Hx. destruct Hx as (c & <- & Hin). specialize (IH c Hin (Hc c Hin)). destruct (fst c); [exact IH|exact IH|apply Qcle_refl]. }
    revert Hs. generalize (Qcsum (map (fun c : occur * rquery => match fst c with MustNot => 0%Qc | _ => squares (snd c) end) cs)). intros x Hx.
    rewrite Qcmult_comm. rewrite <- (Qcmult_0_l (b * b)). apply Qcmult_le_compat_r; [exact Hx|apply nn_lt; apply pos_mult; exact Hb].
Qed.
Lemma fair_leaf_sq b i l : fair_query (RLeaf b i l) -> (0 < idf_of i l)%Qc /\ squares (RLeaf b i l) <> 0%Qc.
Proof.
  intros (Hb & Hl). assert (Hi : (0 < idf_of i l)%Qc) by (destruct l as [[l|] nm| |]; cbn [idf_of leaf_fair] in *; [apply Hl|destruct Hl|reflexivity|reflexivity]). split; [exact Hi|]. cbn [squares]. intros E. assert (G : (0 < idf_of i l * b * (idf_of i l * b))%Qc) by (apply pos_mult; apply pos_mult; assumption). rewrite E in G. exact (Qclt_not_eq _ _ G eq_refl).
Qed.
Lemma expl_freq_is l d : SS (map fst l) -> Forall (fun p => 0 < snd p) l -> expl_freq l d = freq_of l d /\ (existsb (fun p : Z * Z => fst p =? d) l = true -> 0 < freq_of l d) /\ (existsb (fun p : Z * Z => fst p =? d) l = false -> freq_of l d = 0).
Proof.
  intros HS HF. unfold expl_freq, freq_of. induction HF as [|x l Hx HF IH]; [splits; [reflexivity|discriminate|reflexivity]|]. cbn [map] in HS. apply SS_inv in HS. destruct HS as (HS & Hgt). specialize (IH HS). cbn [fromp find existsb]. destruct (Z.ltb_spec (fst x) d) as [H1|H1].
  - destruct (Z.eqb_spec (fst x) d); [lia|]. cbn [orb]. exact IH.
  - destruct (Z.eqb_spec (fst x) d) as [E|E]; cbn [orb]; [splits; [reflexivity|auto|discriminate]|].
    assert (Hno : forall y, In y l -> fst y <> d) by (intros y Hy; specialize (Hgt (fst y) (in_map fst _ _ Hy)); lia).
    assert (Hf : find (fun p : Z * Z => fst p =? d) l = None). { destruct (find (fun p : Z * Z => fst p =? d) l) eqn:Ef; [|reflexivity]. apply find_some in Ef. destruct Ef as (G1 & G2). apply Z.eqb_eq in G2. destruct (Hno _ G1 G2). }
    rewrite Hf in *. splits; [reflexivity| |reflexivity]. intros G. apply existsb_exists in G. destruct G as (y & G1 & G2). apply Z.eqb_eq in G2. destruct (Hno _ G1 G2).
Qed.
(* bw_explain's loop, where the explanations are positive exactly for matching clauses *)
Definition allows (d : Z) (c : occur * rquery) : bool := match fst c with Must => matches d (snd c) | MustNot => negb (matches d (snd c)) | Should => true end.
Lemma expl_loop d (v : occur * rquery -> Qc) : forall cs, (forall c, In c cs -> if matches d (snd c) then (0 < v c)%Qc else v c = 0%Qc) -> forall s n mx,
  expl_sum (map (fun c : occur * rquery => (fst c, v c)) cs) s n mx =
  if forallb (allows d) cs then Some ((s + Qcsum (map (fun c => if asked c && matches d (snd c) then v c else 0%Qc) cs))%Qc, (n + length (filter (fun c => asked c && matches d (snd c)) cs))%nat, (mx + length (filter asked cs))%nat) else None.
Proof.
  induction cs as [|c cs IH]; intros H s n mx.
  - cbn [map expl_sum forallb filter length Qcsum fold_right]. rewrite Qcplus_0_r, !Nat.add_0_r. reflexivity.
  - assert (H' : forall c, In c cs -> if matches d (snd c) then (0 < v c)%Qc else v c = 0%Qc) by (intros c' Hc'; apply H; right; exact Hc'). specialize (H c (or_introl eq_refl)). cbn [map expl_sum forallb filter Qcsum fold_right]. unfold allows at 1. fold (Qcsum (map (fun c => if asked c && matches d (snd c) then v c else 0%Qc) cs)).
    destruct (asked c) eqn:Ea; unfold asked in Ea; destruct (matches d (snd c)) eqn:Em; cbn [andb].
    + apply positive_spec in H. rewrite H. destruct (fst c); try discriminate; cbn [andb negb length]; rewrite (IH H'); (destruct (forallb (allows d) cs); [|reflexivity]); rewrite Qcplus_assoc; do 2 f_equal; [f_equal| |f_equal|]; lia.
    + rewrite H, positive_0. destruct (fst c); try discriminate; cbn [andb negb length]; [|reflexivity]. rewrite (IH H'). destruct (forallb (allows d) cs); [|reflexivity]. rewrite Qcplus_0_l. do 2 f_equal. lia.
    + apply positive_spec in H. rewrite H. destruct (fst c); try discriminate. reflexivity.
    + rewrite H, positive_0. destruct (fst c); try discriminate. cbn [andb negb]. rewrite (IH H'). destruct (forallb (allows d) cs); [|reflexivity]. rewrite Qcplus_0_l. reflexivity.
Qed.
Lemma fair_scorer : forall q, fair_query q -> has_scorer q = true.
Proof.
  induction q as [b i l|b nc cs IH] using rquery_ind2; intros H; [destruct l as [[l|] nm| |]; try reflexivity; destruct H as (_ & [])|]. cbn [has_scorer]. apply forallb_forall. intros c Hc. rewrite Forall_forall in IH. destruct (fst c); try reflexivity. apply IH; [exact Hc|]. apply (proj2 (fair_bool _ _ _ H)). exact Hc.
Qed.
Lemma expl_ok sm d : fair sm -> forall q F, fair_query q -> within d q = true -> ((0 < F)%Qc \/ squares q = 0%Qc) ->
  if matches d q then explain sm (want sm F q) d = worth sm F q d /\ (0 < worth sm F q d)%Qc else explain sm (want sm F q) d = 0%Qc.
Proof.
  intros (T0 & TP & CP & NP). induction q as [b i l|b nc cs IH] using rquery_ind2; intros F HQ HW HF.
  - destruct (fair_leaf_sq b i l HQ) as (Hi & Hsq). destruct HF as [HF|HF]; [|congruence]. destruct HQ as (Hb & Hl). cbn [want explain matches worth]. destruct l as [[l|] nm|mx del|l]; cbn [leaf_fair leaf_matches idf_of within] in *.
    + destruct Hl as (_ & Hnm & HS & HP). destruct (expl_freq_is l d HS HP) as (Ef & G1 & G2). rewrite Ef. destruct (existsb (fun p : Z * Z => fst p =? d) l).
      * split; [ring|]. apply pos_mult; [|apply Hnm]. apply pos_mult; [apply TP; auto|]. repeat apply pos_mult; assumption.
      * rewrite (G2 eq_refl), T0. ring.
    + destruct Hl.
    + cbn [leaf_matches] in HW. rewrite HW. split; [ring|]. apply pos_mult; assumption.
    + cbn [leaf_matches] in HW. rewrite HW. split; [ring|]. apply pos_mult; assumption.
  - destruct (fair_bool b nc cs HQ) as (Hb & Hc). cbn [within] in HW. rewrite forallb_forall in HW. rewrite Forall_forall in IH. cbn [want explain]. rewrite map_map. cbn [fst snd].
    set (v := fun c : occur * rquery => explain sm (match fst c with MustNot => q_weight sm (snd c) | _ => want sm (F * b)%Qc (snd c) end) d).
    assert (HFc : forall c, In c cs -> asked c = true -> (0 < F * b)%Qc \/ squares (snd c) = 0%Qc).
    { intros c Hin Ha. destruct HF as [HF|HF]; [left; apply pos_mult; assumption|right]. cbn [squares] in HF. apply Qcmult_integral in HF. destruct HF as [HF|HF].
      - exfalso. assert (G : (0 < b * b)%Qc) by (apply pos_mult; exact Hb). rewrite HF in G. exact (Qclt_not_eq _ _ G eq_refl).
      - assert (G0 : Forall (fun x => 0 <= x)%Qc (map (fun c : occur * rquery => match fst c with MustNot => 0%Qc | _ => squares (snd c) end) cs)) by (apply Forall_forall; intros x Hx; apply in_map_iff in Hx; destruct Hx as (y & <- & Hy); pose proof (squares_nn _ (Hc y Hy)); destruct (fst y); [assumption|assumption|apply Qcle_refl]).
        pose proof (sum_zero _ G0 HF) as G. rewrite Forall_forall in G. specialize (G _ (in_map _ _ _ Hin)). cbn beta in G. unfold asked in Ha. destruct (fst c); try discriminate; exact G. }
    assert (HV : forall c, In c cs -> if matches d (snd c) then (0 < v c)%Qc else v c = 0%Qc).
    { intros c Hin. unfold v. destruct (fst c) eqn:Eo.
      - specialize (IH c Hin (F * b)%Qc (Hc c Hin) (HW c Hin) (HFc c Hin ltac:(unfold asked; rewrite Eo; reflexivity))). destruct (matches d (snd c)); [destruct IH as (-> & G); exact G|exact IH].
      - specialize (IH c Hin (F * b)%Qc (Hc c Hin) (HW c Hin) (HFc c Hin ltac:(unfold asked; rewrite Eo; reflexivity))). destruct (matches d (snd c)); [destruct IH as (-> & G); exact G|exact IH].
      - rewrite weight_is. assert (HN : (0 < query_norm sm (squares (snd c)))%Qc \/ squares (snd c) = 0%Qc).
        { destruct (Qc_eq_dec (squares (snd c)) 0) as [E|E]; [right; exact E|left]. apply NP. apply Qcnot_le_lt. intros G. apply E. apply Qcle_antisym; [exact G|apply squares_nn; auto]. }
        specialize (IH c Hin _ (Hc c Hin) (HW c Hin) HN). destruct (matches d (snd c)); [destruct IH as (-> & G); exact G|exact IH]. }
    rewrite (expl_loop d v cs HV). assert (EW : forall c, In c cs -> asked c = true -> matches d (snd c) = true -> v c = worth sm (F * b) (snd c) d).
    { intros c Hin Ha Hm. specialize (IH c Hin (F * b)%Qc (Hc c Hin) (HW c Hin) (HFc c Hin Ha)). rewrite Hm in IH. unfold v. unfold asked in Ha. destruct (fst c); try discriminate; apply IH. }
    change (matches d (RBool b nc cs)) with (forallb (allows d) cs && (existsb (fun c : occur * rquery => match fst c with Must => true | _ => false end) cs || existsb (fun c : occur * rquery => match fst c with Should => matches d (snd c) | _ => false end) cs)).
    destruct (forallb (allows d) cs) eqn:Eall; cbn [andb]; [|reflexivity]. rewrite forallb_forall in Eall.
    assert (EA : filter (fun c : occur * rquery => asked c && has_scorer (snd c)) cs = filter asked cs) by (apply filter_ext_in; intros c Hin; rewrite (fair_scorer _ (Hc c Hin)); apply andb_true_r).
    assert (ES : Qcsum (map (fun c : occur * rquery => if asked c && matches d (snd c) then v c else 0%Qc) cs) = Qcsum (map (fun c : occur * rquery => if asked c && matches d (snd c) then worth sm (F * b) (snd c) d else 0%Qc) cs)).
    { f_equal. apply map_ext_in. intros c Hin. destruct (asked c) eqn:Ea; [|reflexivity]. destruct (matches d (snd c)) eqn:Em; [|reflexivity]. cbn [andb]. apply EW; assumption. }
    cbn [worth Nat.add]. rewrite EA, Qcplus_0_l.
    assert (NN : Forall (fun x => 0 <= x)%Qc (map (fun c : occur * rquery => if asked c && matches d (snd c) then v c else 0%Qc) cs)).
    { apply Forall_forall. intros x Hx. apply in_map_iff in Hx. destruct Hx as (c & <- & Hin). specialize (HV c Hin). destruct (asked c); [|apply Qcle_refl]. destruct (matches d (snd c)); cbn [andb]; [apply nn_lt; exact HV|apply Qcle_refl]. }
    destruct (existsb (fun c : occur * rquery => match fst c with Must => true | _ => false end) cs || existsb (fun c : occur * rquery => match fst c with Should => matches d (snd c) | _ => false end) cs) eqn:Eex.
    + assert (G : exists c, In c cs /\ asked c = true /\ matches d (snd c) = true).
      { apply orb_true_iff in Eex. rewrite !existsb_exists in Eex. destruct Eex as [(c & Hin & E)|(c & Hin & E)]; exists c; unfold asked; specialize (Eall c Hin); unfold allows in Eall; destruct (fst c); try discriminate; auto. }
      destruct G as (c & Hin & Ha & Hm). rewrite <- ES. split; [reflexivity|]. apply pos_mult.
      * assert (HVc := HV c Hin). rewrite Hm in HVc. apply Qcnot_le_lt. intros G. assert (E0 : Qcsum (map (fun c : occur * rquery => if asked c && matches d (snd c) then v c else 0%Qc) cs) = 0%Qc) by (apply Qcle_antisym; [exact G|apply nn_sum; exact NN]). pose proof (sum_zero _ NN E0) as Z0. rewrite Forall_forall in Z0. specialize (Z0 _ (in_map _ _ _ Hin)). cbn beta in Z0. rewrite Ha, Hm in Z0. cbn [andb] in Z0. rewrite Z0 in HVc. exact (Qclt_not_eq _ _ HVc eq_refl).
      * destruct nc; [reflexivity|]. assert (Gi : In c (filter (fun c => asked c && matches d (snd c)) cs)) by (apply filter_In; rewrite Ha, Hm; auto). apply CP; [destruct (filter (fun c => asked c && matches d (snd c)) cs); [destruct Gi|cbn [length]; lia]|].
        clear. induction cs as [|c cs IH]; [reflexivity|]. cbn [filter]. destruct (asked c), (matches d (snd c)); cbn [andb length]; lia.
    + assert (E0 : Qcsum (map (fun c : occur * rquery => if asked c && matches d (snd c) then v c else 0%Qc) cs) = 0%Qc).
      { apply orb_false_iff in Eex. destruct Eex as (E1 & E2). clear - E1 E2. induction cs as [|c cs IH]; [reflexivity|]. cbn [existsb map] in *. apply orb_false_iff in E1. apply orb_false_iff in E2. destruct E1 as (A1 & A2), E2 as (B1 & B2). unfold Qcsum in *. cbn [fold_right]. rewrite (IH A2 B2). unfold asked. destruct (fst c); try discriminate; cbn [andb]; [rewrite B1|]; apply Qcplus_0_l. }
      rewrite E0. apply Qcmult_0_l.
Qed.
