(* The scorers on a reader keep the contract of Bool_Proofs. *)
From Coq Require Import Sorting.Permutation Sorting.Sorted.
From Verif Require Import Util BitVector_Model BitVector_Spec BitVector_Proofs PQueue_Model Range_Model Tsc_Model Tsc_Spec Post_Model Phrase_Spec Range_Spec Tpe_Model Tpe_Spec Range_Proofs TpeSim_Proofs TpePhrase_Proofs Leaf_Model Query_Model Bool_Model Bool_Spec Bool_Proofs Filter_Model Filter_Spec Filter_Proofs.
Open Scope Z_scope.
Ltac splits := match goal with |- _ /\ _ => split; [|splits] | _ => idtac end.

Lemma from_fst {A} d (l : list (Z * A)) : map fst (Tsc_Spec.from d l) = Bool_Model.from d (map fst l).
Proof. induction l as [|x l IH]; cbn; [reflexivity|]. destruct (fst x <? d); [exact IH|reflexivity]. Qed.
Definition sop_of (op : option Z) : sop := match op with None => SNext | Some d => SSkip d end.
(* what a cursor leaves *)
Definition left_of {A} (op : option Z) (l : list (Z * A)) : list (Z * A) := match op with None => l | Some d => Tsc_Spec.from d l end.
Lemma s_step_of {A} op (l : list (Z * A)) : s_step l (sop_of op) = s_take (left_of op l).
Proof. destruct op; reflexivity. Qed.
Lemma left_tgt {A} op (l : list (Z * A)) : map fst (left_of op l) = tgt op (map fst l).
Proof. destruct op; cbn [left_of tgt]; [apply from_fst|reflexivity]. Qed.
Lemma ev_leaf_from n op l b l' : (forall k, (n <= k)%nat -> leaf_run k op l = Some (b, l')) -> ev op (Leaf l) b (Leaf l').
Proof. intros H. exists (S n). intros [|f] Hf; [lia|]. cbn [run]. rewrite H by lia. reflexivity. Qed.
Lemma ev_leaf op l b l' : (forall k, leaf_run k op l = Some (b, l')) -> ev op (Leaf l) b (Leaf l').
Proof. intros H. apply (ev_leaf_from 0). auto. Qed.

(* ---------- TermScorer *)
Lemma term_leaf B r del b L : (forall os, tsc_run r del b os = Some (s_run L os)) -> StronglySorted Z.lt (map fst L) -> Forall (fun d => 0 <= d < B) (map fst L) ->
  Beh B true (Leaf (LTerm r del b)) None (map fst L).
Proof.
  intros HB HS HF.
  apply (beh_coind true (fun s cur rest => StronglySorted Z.lt rest /\ Forall (fun d => 0 <= d /\ above B cur d) rest /\ exists b L, s = Leaf (LTerm r del b) /\ rest = map fst L /\ forall os, tsc_run r del b os = Some (s_run L os))).
  2:{ splits; [exact HS|eapply Forall_impl; [|exact HF]; cbn; auto|eauto 6]. }
  clear. intros s cur rest (HS & HF & b & L & -> & -> & H). splits; auto. intros op Hop.
  pose proof (tgt_facts (B := B) op true cur _ HS HF Hop) as (T1 & T2 & T3). pose proof (H [sop_of op]) as H1. cbn [tsc_run s_run] in H1. unfold tsc_step in H1 at 1.
  assert (EQ : match sop_of op with SNext => rb_next r del TSC_READ b | SSkip d => rb_skip r del d b end = match op with None => rb_next r del TSC_READ b | Some d => rb_skip r del d b end) by (destruct op; reflexivity).
  rewrite EQ in H1. destruct (match op with None => rb_next r del TSC_READ b | Some d => rb_skip r del d b end) as [(v, b')|] eqn:E; [|discriminate H1]. cbn [obind] in H1.
  destruct (tsc_seen (v, b')) as [y|] eqn:Ey; [|discriminate H1]. cbn [obind fst snd] in H1. assert (Hy : y = fst (s_step L (sop_of op))) by congruence. clear H1. rewrite s_step_of in Hy.
  exists (Leaf (LTerm r del b')). rewrite <- left_tgt in T1, T2, T3 |- *. split.
  - apply ev_leaf. intros k. cbn [leaf_run]. rewrite E. cbn [obind fst snd]. f_equal. f_equal. unfold tsc_seen in Ey. cbn [fst snd] in Ey. destruct v; [|destruct (left_of op L); [reflexivity|]; apply some_inj in Ey; subst y; cbn in Hy; congruence].
    destruct (nth_error (b_arr b') (b_ptr b')) as [c|]; [|discriminate Ey]. cbn [obind] in Ey. apply some_inj in Ey. destruct (left_of op L); [cbn in Hy; congruence|reflexivity].
  - intros x l Ex. destruct (left_of op L) as [|(x0, f0) L'] eqn:El; [discriminate Ex|]. cbn [map fst] in Ex. injection Ex as -> <-. cbn [s_take fst] in Hy.
    unfold tsc_seen in Ey. cbn [fst snd] in Ey. destruct v; [|apply some_inj in Ey; congruence]. destruct (nth_error (b_arr b') (b_ptr b')) as [c|]; [|discriminate Ey]. cbn [obind] in Ey.
    split; [cbn [doc_of leaf_doc]; congruence|]. destruct (T3 x (map fst L') eq_refl) as (U1 & U2 & U3 & U4). splits; auto.
    exists b', L'. splits; auto. intros os. specialize (H (sop_of op :: os)). cbn [tsc_run s_run] in H. unfold tsc_step in H at 1. rewrite EQ in H. try rewrite E in H. cbn [obind] in H. unfold tsc_seen in H at 1. cbn [fst snd] in H.
    destruct (nth_error (b_arr b') (b_ptr b')) as [c'|] eqn:En; [|discriminate H]. cbn [obind fst snd] in H. rewrite s_step_of, El in H. cbn [s_take snd] in H. destruct (tsc_run r del b' os); [|discriminate H]. cbn [obind] in H. congruence.
Qed.

(* ---------- MultiTermScorer *)
Lemma multi_leaf B r del s (M : list (Z * list (nat * Z))) : (forall os, Forall sop_ok os -> exists res, multi_run r del s os = Some res /\ Forall2 same_docs res (s_run M os)) ->
  StronglySorted Z.lt (map fst M) -> Forall (fun d => 0 <= d < B) (map fst M) -> Beh B true (Leaf (LMulti r del s)) None (map fst M).
Proof.
  intros HB HS HF.
  apply (beh_coind true (fun c cur rest => StronglySorted Z.lt rest /\ Forall (fun d => 0 <= d /\ above B cur d) rest /\ exists s (M : list (Z * list (nat * Z))), c = Leaf (LMulti r del s) /\ rest = map fst M /\
    forall os, Forall sop_ok os -> exists res, multi_run r del s os = Some res /\ Forall2 same_docs res (s_run M os))).
  2:{ splits; [exact HS|eapply Forall_impl; [|exact HF]; cbn; auto|eauto 6]. }
  clear. intros c cur rest (HS & HF & s & M & -> & -> & H). splits; auto. intros op Hop.
  pose proof (tgt_facts (B := B) op true cur _ HS HF Hop) as (T1 & T2 & T3).
  assert (HO : sop_ok (sop_of op)) by (destruct op; cbn [allowed sop_of sop_ok] in *; tauto).
  assert (EQ : match sop_of op with SNext => multi_next r del s | SSkip d => multi_skip r del d s end = match op with None => multi_next r del s | Some d => multi_skip r del d s end) by (destruct op; reflexivity).
  destruct (H [sop_of op] ltac:(auto)) as (res & R1 & R2). cbn [multi_run s_run] in R1, R2. unfold multi_step in R1 at 1. rewrite EQ in R1.
  destruct (match op with None => multi_next r del s | Some d => multi_skip r del d s end) as [(v, s')|] eqn:E; [|discriminate R1]. cbn [obind fst snd] in R1. apply some_inj in R1. subst res. inversion R2 as [|? ? ? ? R3 _]; subst. clear R2. rewrite s_step_of in R3.
  exists (Leaf (LMulti r del s')). rewrite <- left_tgt in T1, T2, T3 |- *. split.
  - apply ev_leaf. intros k. cbn [leaf_run]. rewrite E. cbn [obind fst snd]. f_equal. f_equal. unfold same_docs in R3. destruct v, (left_of op M); cbn in R3 |- *; congruence.
  - intros x l Ex. destruct (left_of op M) as [|(x0, f0) M'] eqn:El; [discriminate Ex|]. cbn [map fst] in Ex. injection Ex as -> <-. unfold same_docs in R3. destruct v; cbn in R3; [|discriminate R3].
    split; [cbn [doc_of leaf_doc]; congruence|]. destruct (T3 x (map fst M') eq_refl) as (U1 & U2 & U3 & U4). splits; auto. exists s', M'. splits; auto.
    intros os Hos. destruct (H (sop_of op :: os) ltac:(constructor; auto)) as (res & R1 & R2). cbn [multi_run s_run] in R1, R2. unfold multi_step in R1 at 1. rewrite EQ in R1. try rewrite E in R1. cbn [obind fst snd] in R1. rewrite s_step_of, El in R2. cbn [s_take snd] in R2.
    destruct (multi_run r del s' os) as [q|]; [|discriminate R1]. cbn [obind] in R1. apply some_inj in R1. subst res. inversion R2; subst. eauto.
Qed.

(* ---------- ConstantScoreScorer *)
Lemma above_SS l mx c : StronglySorted Z.lt (above_l l mx c) /\ Forall (fun d => Z.of_nat c <= d) (above_l l mx c).
Proof.
  unfold above_l. generalize (mx - c)%nat as n. intros n. revert c. induction n as [|n IH]; intros c; cbn [seq filter map]; [split; constructor|]. destruct (IH (S c)) as (H1 & H2).
  assert (H3 : Forall (fun d => Z.of_nat c < d) (map Z.of_nat (filter (member l) (seq (S c) n)))) by (eapply Forall_impl; [|exact H2]; cbn; lia).
  destruct (member l c); cbn [map]; split; [constructor; assumption|constructor; [lia|eapply Forall_impl; [|exact H3]; cbn; lia]|exact H1|eapply Forall_impl; [|exact H3]; cbn; lia].
Qed.
Lemma above_in l mx d : within mx l -> In d (above_l l mx 0) <-> exists k, d = Z.of_nat k /\ In k l.
Proof.
  intros HW. unfold above_l. rewrite in_map_iff. unfold within in HW. rewrite Forall_forall in HW. split.
  - intros (k & <- & Hk). apply filter_In in Hk. destruct Hk as (_ & Hk). exists k. split; auto. apply member_in. exact Hk.
  - intros (k & -> & Hk). exists k. split; auto. apply filter_In. split; [apply in_seq; specialize (HW k Hk); lia|apply member_in; exact Hk].
Qed.
Lemma above_from2 l mx c d : (c <= d)%nat -> Bool_Model.from (Z.of_nat d) (above_l l mx c) = above_l l mx d.
Proof. intros H. rewrite from_filter by apply above_SS. rewrite <- (above_from l mx c d H). reflexivity. Qed.
Lemma bits_leaf mx l doc v : V mx l v 0 -> room v -> within mx l -> Beh (Z.of_nat mx) true (Leaf (LBits doc v)) None (above_l l mx 0).
Proof.
  intros HV HR HW.
  apply (beh_coind true (fun s cur rest => exists doc v c, s = Leaf (LBits doc v) /\ V mx l v c /\ room v /\ rest = above_l l mx c /\ match cur with None => c = O | Some d => d = Z.of_nat c - 1 /\ (0 < c)%nat end)).
  2:{ exists doc, v, O. auto. }
  clear doc v HV HR. intros s cur rest (doc & v & c & -> & HV & HR & -> & Hc). destruct (above_SS l mx c) as (S1 & S2). splits; auto.
  { pose proof HV as (_ & _ & _ & _ & _ & _ & _). rewrite Forall_forall in *. intros d Hd. specialize (S2 d Hd). assert (d < Z.of_nat mx). { unfold above_l in Hd. apply in_map_iff in Hd. destruct Hd as (k & <- & Hk). apply filter_In in Hk. destruct Hk as (_ & Hk). apply member_in in Hk. unfold within in HW. rewrite Forall_forall in HW. specialize (HW k Hk). lia. } destruct cur; cbn [above]; lia. }
  intros op Hop.
  assert (HX : exists i, bits_run op v = bv_scan_next_from v i /\ (c <= i)%nat /\ tgt op (above_l l mx c) = above_l l mx i /\ (i / 32 < length (bv_bits v))%nat).
  { pose proof HV as (_ & _ & _ & _ & V5 & V6 & V7). destruct op as [d|].
    - cbn [allowed] in Hop. destruct Hop as (_ & Ha & H0). exists (Z.to_nat d). cbn [bits_run tgt]. destruct (Z.ltb_spec d 0); [lia|]. assert (c <= Z.to_nat d < mx)%nat by (destruct cur; cbn [above] in Ha; lia). splits; auto; [lia| |].
      + rewrite <- (above_from2 l mx c (Z.to_nat d)) by lia. rewrite Z2Nat.id by lia. reflexivity.
      + pose proof (TO_WORD_div (Z.to_nat d) mx ltac:(lia)). lia.
    - exists c. cbn [bits_run tgt]. unfold bv_scan_next. rewrite V6. splits; auto; [f_equal; lia|]. apply scan_div; auto. }
  destruct HX as (i & E & Hi & -> & Hd).
  destruct (scan_V mx l v c i HV Hd) as [(E2 & Hn)|(j & E2 & HV2 & Hj1 & Hj2 & Hj3)].
  - exists (Leaf (LBits (-1) v)). rewrite above_none by auto. split; [|discriminate]. apply ev_leaf. intros k. cbn [leaf_run]. rewrite E, E2. reflexivity.
  - exists (Leaf (LBits (Z.of_nat j) (with_curr v (Z.of_nat j)))). assert (j < mx)%nat by (apply member_in in Hj2; unfold within in HW; rewrite Forall_forall in HW; auto).
    rewrite (above_skip l mx i j) by auto. split.
    + apply ev_leaf. intros k. cbn [leaf_run]. rewrite E, E2. cbn [obind fst snd]. unfold nonnil. destruct (Z.leb_spec 0 (Z.of_nat j)); [reflexivity|lia].
    + intros x rr Ex. injection Ex as <- <-. split; [reflexivity|]. exists (Z.of_nat j), (with_curr v (Z.of_nat j)), (S j). splits; auto; lia.
Qed.

(* ---------- PhraseScorer *)
Lemma phrase_leaf B i r y del qs slop chk ph s L : dicts i r y -> qs_ok qs -> phrase_ok ph -> fits slop chk ph -> follows i r y del qs slop chk ph s None -> StronglySorted Z.lt L -> Forall (fun d => 0 <= d < B) L -> (forall d, In d L <-> window_in slop ph d) ->
  Beh B true (Leaf (LPhrase r del qs s)) None L.
Proof.
  intros HD HQ Hph Hfit HF0 HS HB HL.
  apply (beh_coind true (fun c cur rest => StronglySorted Z.lt rest /\ Forall (fun d => 0 <= d /\ above B cur d) rest /\ exists s, c = Leaf (LPhrase r del qs s) /\ follows i r y del qs slop chk ph s cur /\
    forall d, In d rest <-> window_in slop ph d /\ match cur with None => True | Some c => c < d end)).
  2:{ splits; [exact HS|eapply Forall_impl; [|exact HB]; cbn; auto|]. exists s. splits; auto. intros d. rewrite HL. tauto. }
  clear s L HF0 HS HB HL. intros c cur rest (HS & HB & s & -> & HF & HL). splits; auto. intros op Hop.
  pose proof (tgt_facts (B := B) op true cur _ HS HB Hop) as (T1 & T2 & T3).
  assert (Hbe : beyond cur op). { destruct op as [d|], cur as [c|]; cbn [allowed beyond above] in *; auto. all: lia. }
  assert (HT : forall d, In d (tgt op rest) <-> window_in slop ph d /\ Phrase_Spec.after cur op d).
  { intros d. destruct op as [t|]; cbn [tgt allowed] in *.
    - rewrite (from_in t rest d) by exact HS. rewrite HL. destruct Hop as (_ & Ha & _). unfold Phrase_Spec.after. split; [tauto|]. intros (H1 & H2). split; [split; [exact H1|]|exact H2]. destruct cur as [c|]; [|exact Logic.I]. cbn [above] in Ha. lia.
    - rewrite HL. unfold Phrase_Spec.after. reflexivity. }
  destruct (follow i r y del qs slop chk ph HD HQ Hph Hfit s cur op HF Hbe) as (b & s' & (n & Hn) & Ho).
  exists (Leaf (LPhrase r del qs s')). destruct (tgt op rest) as [|x l] eqn:E; cbn [nonnil].
  - destruct b. { destruct Ho as (_ & H1 & H2 & _). destruct (proj2 (HT _) (conj H2 H1)). }
    split; [|discriminate]. apply (ev_leaf_from n). intros k Hk. cbn [leaf_run]. rewrite (Hn k Hk). reflexivity.
  - destruct (proj1 (HT x) (or_introl eq_refl)) as (X1 & X2). destruct b. 2:{ exfalso. eapply Ho; eauto. }
    destruct Ho as (H0 & H1 & H2 & H3 & _). pose proof (H3 x X2 X1) as Hle. assert (Ex : s_doc s' = x). { destruct (proj2 (HT _) (conj H2 H1)) as [G|G]; [auto|]. apply SS_inv in T1. destruct T1 as (_ & T1). specialize (T1 _ G). lia. }
    split. { apply (ev_leaf_from n). intros k Hk. cbn [leaf_run]. rewrite (Hn k Hk). reflexivity. }
    intros x0 l0 E0. injection E0 as <- <-. split; [exact Ex|]. destruct (T3 x l eq_refl) as (U1 & U2 & U3 & U4). splits; auto. exists s'. splits; auto; [rewrite <- Ex; exact H0|].
    intros d. apply SS_inv in T1. destruct T1 as (_ & T1). split.
    + intros G. split; [apply HT; right; exact G|apply T1; exact G].
    + intros (G1 & G2). assert (G : In d (x :: l)). { apply HT. split; auto. unfold Phrase_Spec.after in *. destruct op; [lia|]. destruct cur; auto; lia. } destruct G as [G|G]; [lia|exact G].
Qed.
(* the documents with a phrase *)
Definition disps (d : Z) (t : Z * list (Z * list Z)) : list Z := flat_map (fun e : Z * list Z => if fst e =? d then map (fun z => z - fst t) (snd e) else []) (snd t).
Lemma disps_in d t x : In x (disps d t) <-> exists ps, In (d, ps) (snd t) /\ In (x + fst t) ps.
Proof.
  unfold disps. rewrite in_flat_map. split.
  - intros ((d0 & ps) & H1 & H2). cbn [fst snd] in H2. destruct (Z.eqb_spec d0 d) as [->|]; [|destruct H2]. apply in_map_iff in H2. destruct H2 as (z & <- & H2). exists ps. replace (z - fst t + fst t) with z by lia. auto.
  - intros (ps & H1 & H2). exists (d, ps). split; [exact H1|]. cbn [fst snd]. rewrite Z.eqb_refl. apply in_map_iff. exists (x + fst t). split; [lia|exact H2].
Qed.
Fixpoint sels (l : list (list Z)) : list (list Z) := match l with [] => [[]] | c :: l' => flat_map (fun x => map (cons x) (sels l')) c end.
Lemma sels_in d ph : forall xs, In xs (sels (map (disps d) ph)) <-> Forall2 (fun (t : Z * list (Z * list Z)) x => exists ps, In (d, ps) (snd t) /\ In (x + fst t) ps) ph xs.
Proof.
  induction ph as [|t ph IH]; intros xs; cbn [map sels].
  - split; [intros [<-|[]]; constructor|]. inversion 1. left. reflexivity.
  - rewrite in_flat_map. split.
    + intros (x & Hx & H). apply in_map_iff in H. destruct H as (xs' & <- & H). constructor; [apply disps_in; exact Hx|apply IH; exact H].
    + inversion 1 as [|? x ? xs' H1 H2]; subst. exists x. split; [apply disps_in; exact H1|]. apply in_map. apply IH. exact H2.
Qed.
Lemma apart_dec slop xs : {apart slop xs} + {~ apart slop xs}.
Proof.
  induction xs as [|x xs IH]; [left; constructor|]. destruct IH as [IH|IH]; [|right; intros C; inversion C; auto]. destruct (Forall_dec (fun b => Z.abs (x - b) <= slop) (fun b => Z_le_dec (Z.abs (x - b)) slop) xs) as [G|G]; [left; constructor; auto|right; intros C; inversion C; auto].
Qed.
Lemma window_dec slop ph d : {window_in slop ph d} + {~ window_in slop ph d}.
Proof.
  destruct (Exists_dec (apart slop) (sels (map (disps d) ph)) (apart_dec slop)) as [G|G].
  - left. apply Exists_exists in G. destruct G as (xs & G1 & G2). exists xs. split; [apply sels_in; exact G1|exact G2].
  - right. intros (xs & G1 & G2). apply G. apply Exists_exists. exists xs. split; [apply sels_in; exact G1|exact G2].
Qed.
Lemma phrase_docs slop ph : phrase_ok ph -> exists L, StronglySorted Z.lt L /\ forall d, In d L <-> window_in slop ph d.
Proof.
  intros (Hne & HA). destruct ph as [|t ph]; [congruence|]. pose proof (Forall_inv HA) as (HS & _).
  exists (filter (fun d => if window_dec slop (t :: ph) d then true else false) (map fst (snd t))). split; [apply filter_SS; exact HS|]. intros d. rewrite filter_In. split.
  - intros (_ & H). destruct (window_dec slop (t :: ph) d); [assumption|discriminate].
  - intros H. split; [|destruct (window_dec slop (t :: ph) d); [reflexivity|contradiction]]. destruct H as (xs & H & _). inversion H as [|? ? ? ? (l & H1 & _) _]; subst. apply in_map_iff. exists (d, l). auto.
Qed.
