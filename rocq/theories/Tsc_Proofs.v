From Verif Require Import Util Strcmp Dict_Model Dict_Spec Dict_Proofs DictCursor_Proofs Post_Model Post_Spec PostRun_Proofs PQueue_Model PQueue_Spec PQueue_Proofs Multi_Model Mte_Model Mte_Spec Mte_Proofs Mtde_Model Mtde_Spec Mtde_Proofs Expand_Model Expand_Spec Expand_Proofs Range_Model Range_Spec Range_Proofs Tsc_Model Tsc_Spec.
From Coq Require Import Sorting.Permutation.
Open Scope Z_scope.

(* ---------- the enumerators *)
Lemma docs_read i r y del n de L : dicts i r y -> DL i r y de L -> (1 <= n)%nat -> exists de', pe_read r del n de = Some (fst (take_live n del L), de') /\ DL i r y de' (snd (take_live n del L)).
Proof.
  destruct i as [v|mp vs], r as [g|mp' gs st], y as [x|mp2 xs], de as [e|m]; cbn [dicts DL]; try tauto.
  - intros H (rem & HR) Hn. pose proof (z_ok _ _ _ H) as (_ & _ & Hk & _). destruct (sub_read (v_kn v) false (fst g) (snd g) Hk (z_skip _ _ _ H) del n e (L, rem) eq_refl HR) as (e' & E & HR'). cbn [fst] in E, HR'. cbn [pe_read]. rewrite E. cbn [obind fst snd]. eexists. split; [reflexivity|]. cbn [DL]. eauto.
  - intros (-> & -> & -> & Hl & HF & H0) (C & rem & HR) Hn. apply RI_rem in HR; [|reflexivity]. destruct (fuel_next mp vs gs xs false Hl m C L [] HR) as (_ & _ & Hfu).
    destruct (read_ok2 mp vs gs xs false Hl HF del eq_refl _ m C L [] n HR Hn Hfu) as (m' & C' & E & HR'). cbn [pe_read]. rewrite E. cbn [obind fst snd app]. eexists. split; [reflexivity|]. cbn [DL]. eauto.
Qed.
Lemma docs_skip i r y del t de L : dicts i r y -> DL i r y de L -> exists z de', pe_skip r del t de = Some (z, de') /\
  match first_ok (fun d => negb (del d) && (t <=? d)) L with Some (p, l) => z = Some (fst p, freq p) /\ DL i r y de' l | None => z = None /\ DL i r y de' [] end.
Proof.
  destruct i as [v|mp vs], r as [g|mp' gs st], y as [x|mp2 xs], de as [e|m]; cbn [dicts DL]; try tauto.
  - intros H (rem & HR). pose proof (z_ok _ _ _ H) as (_ & _ & Hk & _). destruct (sub_skip (v_kn v) false (fst g) (snd g) Hk (z_skip _ _ _ H) del t e (L, rem) HR) as (b & e' & E & HN). cbn [pe_skip]. rewrite E. cbn [obind fst snd]. eexists _, _. split; [reflexivity|]. cbn [fst] in HN.
    destruct (first_ok _ L) as [[p l]|]; [destruct HN as (-> & -> & -> & HR')|destruct HN as (-> & HR')]; split; auto; cbn [DL]; eauto.
  - intros (-> & -> & -> & Hl & HF & H0) (C & rem & HR). destruct (fuel_next mp vs gs xs false Hl m C L rem HR) as (Hfu & _). destruct (skip_ok2 mp vs gs xs false Hl HF del t _ m C L rem HR Hfu) as (z & m' & E & HS). cbn [pe_skip]. rewrite E. cbn [obind fst snd]. eexists _, _. split; [reflexivity|]. unfold stepped in HS.
    destruct (first_ok _ L) as [[p l]|]; destruct HS as (-> & C' & HR'); split; auto; cbn [DL]; eauto.
Qed.

(* ---------- lists *)
Lemma live_cons del p l : live del (p :: l) = (if del (fst p) then [] else [(fst p, freq p)]) ++ live del l.
Proof. unfold live. cbn [filter]. destruct (del (fst p)); reflexivity. Qed.
Lemma first_live del l : match first_ok (fun d => negb (del d)) l with Some (p, t) => live del l = (fst p, freq p) :: live del t | None => live del l = [] end.
Proof. induction l as [|p l IH]; cbn [first_ok]; [reflexivity|]. rewrite live_cons. destruct (del (fst p)); cbn [negb app]; auto. Qed.
Lemma take_live_ok del : forall n l, live del l = fst (take_live n del l) ++ live del (snd (take_live n del l)) /\ (length (fst (take_live n del l)) <= n)%nat /\ ((1 <= n)%nat -> fst (take_live n del l) = [] -> live del l = []).
Proof.
  induction n as [|n IH]; intros l; cbn [take_live]; [cbn; repeat split; auto; lia|]. pose proof (first_live del l) as H. destruct (first_ok _ l) as [[p t]|]; [|cbn; rewrite H; auto with arith]. destruct (IH t) as (H1 & H2 & _). destruct (take_live n del t) as [r t']. cbn [fst snd app length] in *. rewrite H, H1. repeat split; [lia|]. intros _. discriminate.
Qed.
Lemma from_live del t l : match first_ok (fun d => negb (del d) && (t <=? d)) l with Some (p, r) => from t (live del l) = (fst p, freq p) :: live del r | None => from t (live del l) = [] end.
Proof.
  induction l as [|p l IH]; cbn [first_ok]; [reflexivity|]. rewrite live_cons. destruct (del (fst p)); cbn [negb andb app]; [exact IH|]. cbn [from fst]. destruct (Z.leb_spec t (fst p)), (Z.ltb_spec (fst p) t); auto; lia.
Qed.
Lemma from_app {B} d (a b : list (Z * B)) : from d (a ++ b) = match from d a with [] => from d b | x => x ++ b end.
Proof. induction a as [|x a IH]; cbn [from app]; [reflexivity|]. destruct (fst x <? d); auto. Qed.

(* ---------- reading ahead *)
Section BUF.
  Variables (i : pidx) (r : prdr) (y : idx) (del : Z -> bool) (n : nat).
  Hypotheses (HD : dicts i r y) (Hn : (1 <= n)%nat).
  Definition ahead (b : rbuf) : list (Z * Z) := skipn (S (b_ptr b)) (firstn (b_max b) (b_arr b)).
  Definition RB (b : rbuf) (L : list (Z * Z)) : Prop :=
    length (b_arr b) = n /\ (b_max b <= n)%nat /\ exists P, DL i r y (b_de b) P /\ L = ahead b ++ live del P.
  (* b stands on x *)
  Definition on (b : rbuf) (x : Z * Z) : Prop := b_doc b = fst x /\ b_freq b = snd x /\ nth_error (b_arr b) (b_ptr b) = Some x.
  Lemma skipn_cons {A} k (l : list A) x : nth_error l k = Some x -> skipn k l = x :: skipn (S k) l.
  Proof. revert l. induction k; intros [|z l] H; try discriminate; cbn in *; [congruence|auto]. Qed.
  Lemma nth_first {A} k m (l : list A) : (k < m)%nat -> nth_error (firstn m l) k = nth_error l k.
  Proof. revert m l. induction k; intros [|m] [|z l] H; cbn; auto; try lia. apply IHk. lia. Qed.
  Lemma over_len l old : (length l <= length old)%nat -> length (over l old) = length old.
  Proof. intros H. unfold over. rewrite app_length, skipn_length. lia. Qed.
  Lemma over_first l old : firstn (length l) (over l old) = l.
  Proof. unfold over. rewrite firstn_app, firstn_all, Nat.sub_diag. cbn. apply app_nil_r. Qed.
  Lemma rb_next_ok b L : RB b L -> exists b', rb_next r del n b = Some (match L with [] => false | _ => true end, b') /\
    match L with [] => RB b' [] | x :: t => on b' x /\ RB b' t end.
  Proof.
    intros (H1 & H2 & P & HP & ->). unfold rb_next. destruct (Nat.leb_spec (b_max b) (S (b_ptr b))) as [Hm|Hm].
    - assert (ahead b = []) as -> by (unfold ahead; apply skipn_all2; rewrite firstn_length; lia). cbn [app]. destruct (docs_read i r y del n _ P HD HP Hn) as (de' & E & HP'). rewrite E. cbn [obind fst snd]. destruct (take_live_ok del n P) as (T1 & T2 & T3).
      destruct (fst (take_live n del P)) as [|x l] eqn:EL.
      + rewrite (T3 Hn eq_refl) in T1 |- *. cbn [app] in T1. eexists. split; [reflexivity|]. split; [exact H1|]. split; [cbn; lia|]. exists (snd (take_live n del P)). split; [exact HP'|]. unfold ahead. cbn [b_ptr b_max b_arr firstn]. rewrite skipn_nil. exact T1.
      + rewrite T1. cbn [app]. unfold rb_here. cbn [b_arr b_ptr b_max b_de b_doc b_freq]. assert (Ex : nth_error (over (x :: l) (b_arr b)) 0 = Some x) by reflexivity. rewrite Ex. cbn [obind]. eexists. split; [reflexivity|]. split; [split; [reflexivity|split; [reflexivity|exact Ex]]|].
        split; [cbn [b_arr]; rewrite over_len; lia|]. split; [cbn [b_max]; lia|]. exists (snd (take_live n del P)). split; [exact HP'|]. unfold ahead. cbn [b_ptr b_max b_arr]. rewrite over_first. reflexivity.
    - unfold rb_here. cbn [b_arr b_ptr b_max b_de b_doc b_freq]. destruct (nth_error (b_arr b) (S (b_ptr b))) as [x|] eqn:Ex; [|apply nth_error_None in Ex; lia]. cbn [obind]. eexists.
      assert (Ea : ahead b = x :: skipn (S (S (b_ptr b))) (firstn (b_max b) (b_arr b))) by (unfold ahead; apply skipn_cons; rewrite nth_first by lia; exact Ex). rewrite Ea. cbn [app]. split; [reflexivity|]. split; [split; [reflexivity|split; [reflexivity|exact Ex]]|].
      split; [exact H1|]. split; [exact H2|]. exists P. split; [exact HP|]. reflexivity.
  Qed.
  Lemma rb_scan_ok t arr : forall k p, (p + k <= length arr)%nat -> exists s, rb_scan k arr p t = Some s /\
    match s with
    | Some j => (p <= j < p + k)%nat /\ exists x, nth_error arr j = Some x /\ from t (firstn k (skipn p arr)) = x :: skipn (S j) (firstn (p + k) arr)
    | None => from t (firstn k (skipn p arr)) = [] end.
  Proof.
    induction k as [|k IH]; intros p H; cbn [rb_scan]; [exists None; split; reflexivity|]. destruct (nth_error arr p) as [x|] eqn:Ex; [|apply nth_error_None in Ex; lia]. cbn [obind].
    rewrite (skipn_cons _ _ _ Ex). cbn [firstn from]. destruct (Z.leb_spec t (fst x)) as [Ht|Ht]; destruct (Z.ltb_spec (fst x) t); try lia.
    - exists (Some p). split; [reflexivity|]. split; [lia|]. exists x. split; [exact Ex|]. f_equal. rewrite firstn_skipn_comm. f_equal. f_equal. lia.
    - destruct (IH (S p) ltac:(lia)) as (s & E & Hs). exists s. split; [exact E|]. destruct s as [j|]; [|exact Hs]. destruct Hs as (H3 & z & H4 & H5). split; [lia|]. exists z. split; [exact H4|]. replace (p + S k)%nat with (S p + k)%nat by lia. exact H5.
  Qed.
  Lemma rb_skip_ok t b L : RB b L -> exists b', rb_skip r del t b = Some (match from t L with [] => false | _ => true end, b') /\
    match from t L with [] => RB b' [] /\ b_doc b' = b_doc b | x :: l => on b' x /\ RB b' l end.
  Proof.
    intros (H1 & H2 & P & HP & ->). unfold rb_skip.
    assert (Ea : ahead b = firstn (b_max b - S (b_ptr b)) (skipn (S (b_ptr b)) (b_arr b))).
    { unfold ahead. destruct (Nat.le_gt_cases (b_max b) (S (b_ptr b))) as [G|G].
      - rewrite skipn_all2 by (rewrite firstn_length; lia). replace (b_max b - S (b_ptr b))%nat with O by lia. reflexivity.
      - rewrite firstn_skipn_comm. f_equal. f_equal. lia. }
    assert (EX : exists s, rb_scan (b_max b - S (b_ptr b)) (b_arr b) (S (b_ptr b)) t = Some s /\
       match s with Some j => (j < b_max b)%nat /\ exists x, nth_error (b_arr b) j = Some x /\ from t (ahead b) = x :: skipn (S j) (firstn (b_max b) (b_arr b)) | None => from t (ahead b) = [] end).
    { destruct (Nat.le_gt_cases (b_max b) (S (b_ptr b))) as [G|G].
      - exists None. rewrite Ea. replace (b_max b - S (b_ptr b))%nat with O by lia. split; reflexivity.
      - destruct (rb_scan_ok t (b_arr b) (b_max b - S (b_ptr b)) (S (b_ptr b)) ltac:(lia)) as (s & E & Hs). exists s. split; [exact E|]. rewrite <- Ea in Hs. destruct s as [j|]; [|exact Hs]. destruct Hs as (G1 & x & G2 & G3). split; [lia|]. exists x. split; [exact G2|]. rewrite G3. f_equal. f_equal. f_equal. lia. }
    destruct EX as (s & E & Hs). cbv zeta. rewrite E. cbn [obind]. rewrite from_app. destruct s as [j|].
    - destruct Hs as (G1 & x & G2 & ->). unfold rb_here. cbn [b_arr b_ptr b_max b_de b_doc b_freq]. rewrite G2. cbn [obind app]. eexists. split; [reflexivity|]. split; [split; [reflexivity|split; [reflexivity|exact G2]]|]. split; [exact H1|]. split; [exact H2|]. exists P. split; [exact HP|reflexivity].
    - rewrite Hs. destruct (docs_skip i r y del t _ P HD HP) as (z & de' & E2 & HZ). rewrite E2. cbn [obind fst snd]. pose proof (from_live del t P) as HF. destruct (first_ok _ P) as [[p l]|]; rewrite HF.
      + destruct HZ as (-> & HP'). cbn [obind]. eexists. split; [reflexivity|]. split; [split; [reflexivity|split; [reflexivity|reflexivity]]|]. split; [cbn [b_arr]; rewrite over_len; cbn [length]; lia|]. split; [cbn [b_max]; lia|]. exists l. split; [exact HP'|]. reflexivity.
      + destruct HZ as (-> & HP'). eexists. split; [reflexivity|]. split; [|reflexivity]. split; [exact H1|]. split; [exact H2|]. exists []. split; [exact HP'|]. unfold ahead. cbn [b_ptr b_max b_arr]. rewrite skipn_all2 by (rewrite firstn_length; lia). reflexivity.
  Qed.
  Lemma rb_new_ok doc de P : DL i r y de P -> RB (rb_new n doc de) (live del P).
  Proof. intros H. split; [apply repeat_length|]. split; [cbn; lia|]. exists P. split; [exact H|]. unfold ahead, rb_new. cbn [b_ptr b_max b_arr firstn]. rewrite skipn_nil. reflexivity. Qed.
End BUF.
