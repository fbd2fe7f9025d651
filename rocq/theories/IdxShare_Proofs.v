(* Several Index objects on one directory, keys, and what goes wrong. *)
From Coq Require Import List ZArith Bool Arith Permutation Lia.
From Verif Require Import Util Idx_Model Idx_Spec Idx_Proofs.
Import ListNotations.

(* one object: the whole history ------------------------------------------------------------------------------------------- *)

Lemma fresh_inv : forall me d, d_lock d = None -> inv me (mkSt fresh d) (mkAbs (d_cells d) true) /\ current (mkSt fresh d).
Proof.
  intros me d H. assert (HN : N (mkSt fresh d)) by (exists 0, d; auto). split.
  - apply (inv_N me (mkSt fresh d) HN).
  - eapply current_N. exact HN.
Qed.
Lemma one_object : forall pol opt me d cs, good_policy pol -> d_lock d = None -> Forall (supported opt) cs ->
  explains opt (mkAbs (d_cells d) true) cs (fst (runs pol opt me cs (mkSt fresh d))).
Proof.
  intros pol opt me d cs (P1 & P2 & P3) HL HS. destruct (fresh_inv me d HL) as [HI HC].
  eapply runs_explained; try eassumption; auto.
Qed.

(* where a history without errors leads *)
Lemma runs_inv : forall pol opt me d cs, good_policy pol -> d_lock d = None -> Forall (supported opt) cs ->
  (forall e, ~ In (Raise e) (fst (runs pol opt me cs (mkSt fresh d)))) ->
  exists a, inv me (snd (runs pol opt me cs (mkSt fresh d))) a /\ current (snd (runs pol opt me cs (mkSt fresh d))).
Proof.
  intros pol opt me d cs HP HL HS HE. pose proof HP as (P1 & P2 & P3).
  destruct (fresh_inv me d HL) as [HI HC]. revert HI HC HE HS. generalize (mkAbs (d_cells d) true) as a. generalize (mkSt fresh d) as s.
    induction cs as [|c cs IH]; intros s a HI HC HE HS; [exists a; auto|].
    inversion HS as [|c' cs' HS1 HS2]; subst.
    pose proof (call_fine pol opt me P1 P2 P3 s a c HI HS1 (fun _ => current_timely s HC)) as HF.
    assert (G : fine opt me s a c (run pol opt me c s) \/ exists e s', run pol opt me c s = (Raise e, s') /\ fails a c e).
    { destruct c; try (left; exact HF). exact (HF HC). }
    cbn [runs] in *. destruct G as [(v & s' & b & E & HI' & HSt & HO & _ & HC' & _)|(e & s' & E & HFa)]; rewrite E in *.
    - destruct (runs pol opt me cs s') as [vs s''] eqn:ER. cbn [fst snd] in *.
      destruct (IH s' b HI' (HC' HC)) as (a' & G); rewrite ?ER; cbn [fst snd].
      + intros e HIn. apply (HE e). right. exact HIn.
      + exact HS2.
      + rewrite ER in G. exists a'. exact G.
    - exfalso. apply (HE e). left. reflexivity.
Qed.

(* a document by name cannot be updated with :auto_flush, and it is gone *)
Lemma update_lost : forall pol opt me d cs t x, good_policy pol -> d_lock d = None -> auto_flush opt = true ->
  Forall (supported opt) cs ->
  (forall e, ~ In (Raise e) (fst (runs pol opt me cs (mkSt fresh d)))) ->
  let s := snd (runs pol opt me cs (mkSt fresh d)) in
  exists s' l, run pol opt me (Update (inr t) x) s = (Raise NoMethod, s') /\
               fst (run pol opt me Each s) = Ok (Docs l) /\ fst (run pol opt me Each s') = Ok (Docs (without (named opt [t]) l)).
Proof.
  intros pol opt me d cs t x HP HL HA HS HE. cbv zeta. pose proof HP as (P1 & P2 & P3).
  destruct (runs_inv pol opt me d cs HP HL HS HE) as (a & HI & HC). set (s := snd (runs pol opt me cs (mkSt fresh d))) in *.
  destruct (ensure_writer_open_ok me s a HI) as (s1 & w1 & H1 & H2 & H3 & H4 & H5).
  destruct (ensure_writer_open_ok me s1 _ (inv_W me s1 w1 H2)) as (s2 & w2 & G1 & G2 & G3 & G4 & G5).
  destruct (writer_delete_W pol me P1 P2 s2 w2 (id_field opt) [t] G2) as (s3 & w3 & K1 & K2 & K3 & K4 & K5).
  destruct (flush_W pol me P1 P2 s3 w3 K2) as (s4 & L1 & L2 & L3 & L4).
  exists s4. pose proof (each_fine pol opt me P1 P2 s a HI (current_timely s HC)) as (v & s5 & b & E1 & _ & E2 & _).
  cbn [step] in E2. destruct E2 as [_ ->].
  pose proof (each_fine pol opt me P1 P2 s4 _ (inv_N me s4 L2) (timely_N s4 L2)) as (v' & s6 & b' & F1 & _ & F2 & _).
  cbn [step] in F2. destruct F2 as [_ ->].
  exists (docs a). split.
  { cbn [run]. unfold give, update, delete, auto, when. rewrite HA. rewrite ?bind_assoc. erewrite bind_ok by exact H1.
    rewrite ?bind_assoc. erewrite bind_ok by exact G1. rewrite ?bind_assoc. erewrite bind_ok by exact K1.
    rewrite ?bind_assoc. erewrite bind_ok by exact L1. rewrite ?bind_assoc.
    destruct L2 as (n & d' & -> & _). reflexivity. }
  split; [rewrite E1; reflexivity|]. rewrite F1. cbn [fst]. f_equal. f_equal. unfold docs at 1. cbn [nums].
  rewrite L3, K4, G3. cbn [nums]. rewrite H3. reflexivity.
Qed.

(* closing writes everything and lets go of the lock *)
Lemma close_keeps : forall pol opt me d cs, good_policy pol -> d_lock d = None -> Forall (supported opt) cs ->
  (forall e, ~ In (Raise e) (fst (runs pol opt me cs (mkSt fresh d)))) ->
  let s := snd (runs pol opt me cs (mkSt fresh d)) in
  exists s' l, close pol s = (Ok tt, s') /\ fst (run pol opt me Each s) = Ok (Docs l) /\
               live (d_cells (dr s')) = l /\ d_lock (dr s') = None /\
               (forall c, c <> Flush -> c <> DeleteBatch [] -> fst (run pol opt me c s') = Raise Closed) /\ fst (close pol s') = Raise Closed.
Proof.
  intros pol opt me d cs HP HL HS HE. cbv zeta. pose proof HP as (P1 & P2 & P3).
  destruct (runs_inv pol opt me d cs HP HL HS HE) as (a & HI & HC). set (s := snd (runs pol opt me cs (mkSt fresh d))) in *.
  pose proof (each_fine pol opt me P1 P2 s a HI (current_timely s HC)) as (v & s5 & b & E1 & _ & E2 & _).
  cbn [step] in E2. destruct E2 as [_ ->].
  assert (G : exists n d', close pol s = (Ok tt, mkSt (mkIdx false None None None n) d') /\ live (d_cells d') = docs a /\ d_lock d' = None).
  { clearbody s. unfold close. erewrite bind_ok by (unfold get; reflexivity). cbv beta. unfold docs.
    destruct HI as [w HW|r sc HR HM|HN|r sc HO HM]; cbn [nums].
    - destruct (writer_close_W pol me P1 P2 s w HW) as (s' & H1 & H2 & H3 & _).
      pose proof HW as (n & d' & Hs & _). unfold searcher_close. rewrite ?bind_assoc.
      destruct (writer_close pol s) as [[[]|e] s1] eqn:EW; unfold bind in H1; rewrite EW in H1; [|discriminate H1].
      cbn [snd] in H1. exists (o_next (obj s1)), (dr s1).
      split; [rewrite Hs in *; unfold bind, get, ret; cbn [obj dr o_open o_wr o_rd o_sc negb]; rewrite EW; reflexivity|].
      unfold set_wr in H1. apply pair_equal_spec in H1. destruct H1 as [_ <-]. cbn [dr] in *. split; [exact H3|].
      destruct H2 as (n2 & d2 & Hd & HL2). inversion Hd; subst. exact HL2.
    - destruct (closing me s r sc HR HM) as (s' & H1 & H2 & H3 & _).
      pose proof HR as (n & d' & Hs & HH). destruct (rd_commit_held me r d' HH) as (K1 & K2 & K3 & K4 & K5 & K6 & K7).
      exists n, (snd (rd_commit r d')). split; [|rewrite K6; auto].
      rewrite Hs. destruct HM as [->| ->]; reflexivity.
    - destruct HN as (n & d' & -> & HN). exists n, d'. split; [reflexivity|]. auto.
    - destruct HO as (n & d' & -> & L & L1 & L2 & L3 & L4). exists n, d'. split; [|auto].
      destruct HM as [->| ->]; unfold searcher_close, reader_close, bind, get, set_rd, set_sc, set_dir, ret, rd_commit;
      cbn; rewrite L2; reflexivity. }
  destruct G as (n & d' & G1 & G2 & G3). eexists. exists (docs a). split; [exact G1|]. split; [rewrite E1; reflexivity|].
  split; [exact G2|]. split; [exact G3|]. split; [|reflexivity].
  intros c H1 H2. destruct c as [x|[i|t]|ids|q|[i|t] x|xs|q ch| | |os| | |q| |t|i|i| |]; try reflexivity.
  - cbn [run]. unfold give, delete_batch, batch_delete. destruct (numbers ids) as [|i ns] eqn:EN; [|reflexivity].
    destruct (names ids) as [|t ts] eqn:ET; [|reflexivity]. destruct ids as [|[i|t] ids]; [congruence|discriminate EN|discriminate ET].
  - cbn [run]. unfold give, batch_update, batch_delete. destruct xs as [|x xs]; [reflexivity|].
    assert (EN : forall l, numbers (map (fun y => inr (val (id_field opt) y)) l) = []) by (induction l as [|y l IH]; [reflexivity|exact IH]).
    rewrite EN. reflexivity.
  - congruence.
Qed.

(* several objects ------------------------------------------------------------------------------------------------------------ *)

Lemma quiet_abs : forall me s a, inv me s a -> quiet s -> a = mkAbs (d_cells (dr s)) true.
Proof.
  intros me s a H Q. destruct H as [w HW|r sc HR HM|HN|r sc HO HM]; try reflexivity.
  - destruct HW as (n & d & -> & HL & _). unfold quiet in Q. cbn [dr] in Q. congruence.
  - destruct HR as (n & d & -> & _ & _ & [(_ & _ & L)|(_ & _ & _ & L)]).
    + unfold quiet in Q. cbn [dr] in Q. congruence.
    + rewrite L. reflexivity.
Qed.

(* an object that rests keeps to its place while another commits *)
Lemma rests : forall me o d d' a, inv me (mkSt o d) a -> d_lock d = None -> d_lock d' = None -> onward d d' -> 1 <= d_segs d ->
  inv me (mkSt o d') (mkAbs (d_cells d') true).
Proof.
  intros me o d d' a H Q Q' (O1 & O2 & O3) G. destruct H as [w HW|r sc HR HM|HN|r sc HO HM].
  - destruct HW as (n & d0 & E & HL & _). assert (Ed : d = d0) by (inversion E; reflexivity). subst d0. congruence.
  - destruct HR as (n & d0 & E & HV & HG & HH). assert (Ed : d = d0) by (inversion E; reflexivity). subst d0.
    destruct HH as [(_ & _ & L)|(L1 & L2 & L3 & L4)]; [congruence|].
    destruct (Nat.eq_dec (d_ver d') (d_ver d)) as [EV|NV].
    + destruct (O2 EV) as [C1 C2].
      assert (HR : R me (mkSt o d') r sc).
      { exists n, d'. split; [inversion E; reflexivity|]. unfold held. split; [congruence|]. split; [congruence|]. right. repeat split; congruence. }
      replace (d_cells d') with (rd_cells r) by congruence. apply (inv_R me _ r sc HR HM).
    + assert (HO : O (mkSt o d') r sc).
      { exists n, d'. split; [inversion E; reflexivity|]. repeat split; try assumption; lia. }
      apply (inv_O me _ r sc HO HM).
  - assert (HN' : N (mkSt o d')).
    { destruct HN as (n & d0 & E & _). exists n, d'. split; [inversion E; reflexivity|exact Q']. }
    apply (inv_N me _ HN').
  - assert (HO' : O (mkSt o d') r sc).
    { destruct HO as (n & d0 & E & L & L1 & L2 & L3 & L4). assert (Ed : d = d0) by (inversion E; reflexivity). subst d0.
      exists n, d'. split; [inversion E; reflexivity|]. repeat split; try assumption; lia. }
    apply (inv_O me _ r sc HO' HM).
Qed.

Lemma nth_put : forall A (l : list A) i x j y, nth_error (put i x l) j = Some y ->
  (j = i /\ y = x) \/ (j <> i /\ nth_error l j = Some y).
Proof.
  intros A l. induction l as [|z l IH]; intros i x j y H.
  - destruct i; destruct j; discriminate H.
  - destruct i as [|i]; destruct j as [|j]; cbn [put nth_error] in H.
    + apply some_inj in H. left. auto.
    + right. split; [discriminate|exact H].
    + right. split; [discriminate|exact H].
    + destruct (IH i x j y H) as [[-> ->]|[H1 H2]]; [left; auto|right; split; [congruence|exact H2]].
Qed.
Lemma put_length : forall A (l : list A) i x, length (put i x l) = length l.
Proof. intros A l. induction l as [|z l IH]; intros [|i] x; cbn [put length]; rewrite ?IH; reflexivity. Qed.

Definition resting (all : list (nat * call)) (w : world) : Prop :=
  d_lock (w_dir w) = None /\ 1 <= d_segs (w_dir w) /\
  forall i o, nth_error (w_objs w) i = Some o ->
    (exists a, inv i (mkSt o (w_dir w)) a) /\ ((forall c, In (i, c) all -> by_searcher c = false) -> o_sc o = None).

Lemma share_explained : forall pol opts all, good_policy pol -> one_way all -> (forall i, auto_flush (opts i) = true) ->
  forall cs w, resting all w -> incl cs all -> Forall (fun ic => sharing (snd ic) /\ fst ic < length (w_objs w)) cs ->
  shared opts (mkAbs (d_cells (w_dir w)) true) cs (fst (share pol opts cs w)).
Proof.
  intros pol opts all (P1 & P2 & P3) HW HA cs. induction cs as [|[i c] cs IH]; intros w HR HI HS; [constructor|].
  inversion HS as [|ic' cs' [HS1 HB] HS2]; subst. cbn [fst snd] in HS1, HB.
  destruct HR as (HL & HG & HO). cbn [share].
  destruct (nth_error (w_objs w) i) as [o|] eqn:EN.
  2:{ apply nth_error_None in EN. lia. }
  destruct (HO i o EN) as [[a Ha] Hu].
  assert (Ea : a = mkAbs (d_cells (w_dir w)) true) by (apply (quiet_abs i _ a Ha HL)). subst a.
  assert (HT : by_reader c = true -> timely (mkSt o (w_dir w))).
  { intros E r sc (n & d & Eo & _). assert (o_sc o = sc) as <- by (inversion Eo; reflexivity).
    apply Hu. intros c' Hc'. apply (HW i c c'); [apply HI; left; reflexivity|exact Hc'|exact E]. }
  assert (HSup : supported (opts i) c).
  { destruct c as [x|[n|t]|ids|q|[n|t] x|xs|q change| | |others| | |q| |t|n|n| |]; cbn [supported sharing] in *; auto. destruct HS1. }
  pose proof (call_fine pol (opts i) i P1 P2 P3 _ _ c Ha HSup HT) as HF.
  assert (G : fine (opts i) i (mkSt o (w_dir w)) (mkAbs (d_cells (w_dir w)) true) c (run pol (opts i) i c (mkSt o (w_dir w)))).
  { destruct c; try exact HF. destruct HS1. }
  destruct G as (v & s' & b & E & HI' & HSt & HOn & HQ & HC & HU). rewrite E.
  assert (Q' : quiet s') by (apply HQ; [exact HL|apply HA|exact HS1]).
  assert (Eb : b = mkAbs (d_cells (dr s')) true) by (apply (quiet_abs i s' b HI' Q')). subst b.
  pose proof (IH (mkWorld (put i (obj s') (w_objs w)) (dr s'))) as IH'.
  destruct (share pol opts cs (mkWorld (put i (obj s') (w_objs w)) (dr s'))) as [vs w']. cbn [fst w_dir w_objs] in *.
  eapply sh_ok; [exact HSt|]. apply IH'.
  - split; [exact Q'|]. split; [destruct HOn as (_ & _ & HOn); apply HOn; exact HG|]. cbn [w_dir w_objs].
    intros j y Hj. destruct (nth_put _ _ _ _ _ _ Hj) as [[-> ->]|[Hne Hj']].
    + split.
      * eexists. destruct s' as [o' d']. exact HI'.
      * intros Hc. apply (HU (HA i)).
        { apply Hc. apply HI. left. reflexivity. }
        { exact (Hu Hc). }
    + destruct (HO j y Hj') as [[a' Ha'] Hu']. split; [|exact Hu'].
      eexists. eapply rests; [exact Ha'|exact HL|exact Q'|exact HOn|exact HG].
  - intros z Hz. apply HI. right. exact Hz.
  - rewrite put_length. exact HS2.
Qed.

Lemma many_objects : forall pol opts d n cs, good_policy pol -> (forall i, auto_flush (opts i) = true) ->
  d_lock d = None -> 1 <= d_segs d -> one_way cs -> Forall (fun ic => sharing (snd ic) /\ fst ic < n) cs ->
  shared opts (mkAbs (d_cells d) true) cs (fst (share pol opts cs (mkWorld (repeat fresh n) d))).
Proof.
  intros pol opts d n cs HP HA HL HG HW HS.
  apply (share_explained pol opts cs HP HW HA cs (mkWorld (repeat fresh n) d)).
  - split; [exact HL|]. split; [exact HG|]. cbn [w_objs w_dir]. intros i o Hi.
    assert (o = fresh) as ->.
    { apply nth_error_In in Hi. apply repeat_spec in Hi. exact Hi. }
    split; [|reflexivity]. eexists. apply (proj1 (fresh_inv i d HL)).
  - intros z Hz. exact Hz.
  - cbn [w_objs]. rewrite repeat_length. exact HS.
Qed.

(* keys -------------------------------------------------------------------------------------------------------------------------- *)

Inductive subseq {A} : list A -> list A -> Prop :=
  | sq_nil : subseq [] []
  | sq_skip x a b : subseq a b -> subseq a (x :: b)
  | sq_take x a b : subseq a b -> subseq (x :: a) (x :: b).
Lemma subseq_refl : forall A (l : list A), subseq l l.
Proof. intros A l. induction l; constructor; assumption. Qed.
Lemma subseq_filter : forall A (p : A -> bool) l, subseq (filter p l) l.
Proof. intros A p l. induction l as [|x l IH]; [constructor|]. cbn [filter]. destruct (p x); constructor; exact IH. Qed.
Lemma subseq_trans : forall A (b c : list A), subseq b c -> forall a, subseq a b -> subseq a c.
Proof.
  intros A b c H. induction H as [|x b c H IH|x b c H IH]; intros a Ha.
  - exact Ha.
  - apply sq_skip. apply IH. exact Ha.
  - inversion Ha as [|y a' b' Ha' E1 E2|y a' b' Ha' E1 E2]; subst.
    + apply sq_skip. apply IH. exact Ha'.
    + apply sq_take. apply IH. exact Ha'.
Qed.
Lemma subseq_in : forall A (a b : list A), subseq a b -> forall x, In x a -> In x b.
Proof.
  intros A a b H. induction H as [|x a b H IH|x a b H IH]; intros y Hy; [exact Hy|right; apply IH; exact Hy|].
  destruct Hy as [->|Hy]; [left; reflexivity|right; apply IH; exact Hy].
Qed.
Lemma subseq_nodup : forall A B (g : A -> B) a b, subseq a b -> NoDup (map g b) -> NoDup (map g a).
Proof.
  intros A B g a b H. induction H as [|x a b H IH|x a b H IH]; intros HN; [exact HN| |].
  - inversion HN; subst. auto.
  - cbn [map] in *. inversion HN as [|y l H1 H2]; subst. constructor; [|auto].
    intros HI. apply H1. apply in_map_iff in HI. destruct HI as (z & E & HI). apply in_map_iff. exists z. split; [exact E|].
    eapply subseq_in; eassumption.
Qed.
Lemma subseq_kill : forall n l, subseq (live (kill_at n l)) (live l).
Proof.
  intros n l. revert n. unfold live. induction l as [|[x b] l IH]; intros [|n]; cbn [kill_at filter snd fst map].
  - constructor.
  - constructor.
  - destruct b; cbn [map fst]; [apply sq_skip|]; apply subseq_refl.
  - destruct b; cbn [map fst]; [apply sq_take|]; apply IH.
Qed.
Lemma subseq_kills : forall ns l, subseq (live (kills ns l)) (live l).
Proof.
  intros ns. unfold kills. induction ns as [|n ns IH]; intros l; [apply subseq_refl|]. cbn [fold_left].
  eapply subseq_trans; [apply subseq_kill|]. apply IH.
Qed.

Lemma term_eqb_eq : forall a b, term_eqb a b = true <-> a = b.
Proof.
  intros a. induction a as [|x a IH]; intros [|y b]; cbn [term_eqb]; split; intros H; try reflexivity; try discriminate H.
  - apply andb_true_iff in H. destruct H as [H1 H2]. apply Z.eqb_eq in H1. apply IH in H2. congruence.
  - inversion H; subst. rewrite Z.eqb_refl. apply IH. reflexivity.
Qed.
Definition keyed (opt : options) (l : list doc) : Prop :=
  NoDup (map (key_of opt) l) /\ (forall x f, In x l -> In f (key_fields opt) -> plain f x).
Lemma keyed_sub : forall opt a b, subseq a b -> keyed opt b -> keyed opt a.
Proof.
  intros opt a b H [H1 H2]. split; [eapply subseq_nodup; eassumption|]. intros x f Hx. apply H2. eapply subseq_in; eassumption.
Qed.
Lemma has_plain : forall f t y, plain f y -> has_term f t y = term_eqb t (val f y).
Proof. intros f t y H. unfold has_term. rewrite H. cbn [existsb]. apply orb_false_r. Qed.
Lemma replaced_key : forall opt x y, key opt <> NoKey -> (forall f, In f (key_fields opt) -> plain f y) ->
  key_of opt x = key_of opt y -> replaced opt x y = true.
Proof.
  intros opt x y HK HP E. unfold replaced, key_of, key_fields in *. destruct (key opt) as [|f|fs]; [congruence| |].
  - rewrite has_plain by (apply HP; left; reflexivity). apply term_eqb_eq. cbn [map] in E. inversion E. reflexivity.
  - apply forallb_forall. intros f Hf. rewrite has_plain by (apply HP; exact Hf). apply term_eqb_eq.
    clear HK HP. induction fs as [|g fs IH]; [destruct Hf|]. cbn [map] in E. inversion E as [[E1 E2]].
    destruct Hf as [->|Hf]; [exact E1|apply IH; assumption].
Qed.
Lemma nodup_snoc : forall A (l : list A) x, NoDup l -> ~ In x l -> NoDup (l ++ [x]).
Proof.
  intros A l x H1 H2. apply (Permutation_NoDup (l := x :: l)).
  - apply Permutation_cons_append.
  - constructor; assumption.
Qed.
Lemma keyed_add : forall opt l x, key opt <> NoKey -> keyed opt l -> (forall f, In f (key_fields opt) -> plain f x) ->
  keyed opt (without (replaced opt x) l ++ [x]).
Proof.
  intros opt l x HK HL HX. pose proof (keyed_sub opt _ l (subseq_filter _ (fun y => negb (replaced opt x y)) l) HL) as [H1 H2].
  destruct HL as [_ HP]. split.
  - rewrite map_app. apply nodup_snoc; [exact H1|]. intros HI. apply in_map_iff in HI. destruct HI as (y & E & HI).
    apply filter_In in HI. destruct HI as [HI HR]. rewrite (replaced_key opt x y HK) in HR; [discriminate HR| |congruence].
    intros f Hf. apply HP; assumption.
  - intros y f Hy Hf. apply in_app_iff in Hy. destruct Hy as [Hy|[->|[]]]; [apply H2; assumption|apply HX; exact Hf].
Qed.
Lemma nodup_both : forall A (a b : list A), NoDup a -> NoDup b -> (forall x, In x a -> ~ In x b) -> NoDup (a ++ b).
Proof.
  intros A a b HA HB H. induction HA as [|x a Hx HA IH]; [exact HB|]. cbn [app]. constructor.
  - intros HI. apply in_app_iff in HI. destruct HI as [HI|HI]; [exact (Hx HI)|]. apply (H x); [left; reflexivity|exact HI].
  - apply IH. intros y Hy. apply H. right. exact Hy.
Qed.
Lemma keyed_batch : forall opt l xs, key opt = OneKey (id_field opt) -> keyed opt l -> (forall x, In x xs -> plain (id_field opt) x) ->
  NoDup (map (val (id_field opt)) xs) -> keyed opt (without (named opt (map (val (id_field opt)) xs)) l ++ xs).
Proof.
  intros opt l xs HK HL HX HN.
  pose proof (keyed_sub opt _ l (subseq_filter _ (fun y => negb (named opt (map (val (id_field opt)) xs) y)) l) HL) as [H1 H2].
  destruct HL as [_ HP]. assert (EK : forall x, key_of opt x = [val (id_field opt) x]).
  { intros x. unfold key_of, key_fields. rewrite HK. reflexivity. }
  split.
  - rewrite map_app. apply nodup_both; [exact H1| |].
    + rewrite (map_ext _ (fun x => [val (id_field opt) x]) EK). rewrite <- (map_map (val (id_field opt)) (fun t => [t])).
      clear H1 H2. induction HN as [|t ts Ht HN IH]; cbn [map]; [constructor|]. constructor; [|exact IH].
      intros HI. apply in_map_iff in HI. destruct HI as (u & E & HI). inversion E. subst u. exact (Ht HI).
    + intros k Hk Hk'. apply in_map_iff in Hk. destruct Hk as (y & E & Hy). apply in_map_iff in Hk'. destruct Hk' as (x & E' & Hx).
      apply filter_In in Hy. destruct Hy as [Hy HR]. apply negb_true_iff in HR. apply Bool.not_true_iff_false in HR. apply HR.
      unfold named. apply existsb_exists. exists (val (id_field opt) x). split; [apply in_map; exact Hx|].
      rewrite has_plain.
      * apply term_eqb_eq. rewrite !EK in *. congruence.
      * apply HP; [exact Hy|]. unfold key_fields. rewrite HK. left. reflexivity.
  - intros y f Hy Hf. apply in_app_iff in Hy. destruct Hy as [Hy|Hy]; [apply H2; assumption|].
    unfold key_fields in Hf. rewrite HK in Hf. destruct Hf as [<-|[]]. apply HX. exact Hy.
Qed.
Lemma keyed_step : forall opt a c v b, key opt <> NoKey -> keyed opt (docs a) -> by_key opt c -> step opt a c v b -> keyed opt (docs b).
Proof.
  intros opt a c v b HK HD HT HS.
  assert (RD : forall m, read a m -> docs m = docs a) by (intros m (_ & E & _); exact E).
  destruct c as [x|[n|t]|ids|q|[n|t] x|xs|q change| | |others| | |q| |t|n|n| |]; cbn [by_key step] in *; try (destruct HT; fail).
  - destruct HS as [_ ->]. apply keyed_add; assumption.
  - destruct HS as (_ & _ & m & Hm & E). unfold docs. rewrite E. eapply keyed_sub; [apply subseq_kill|]. fold (docs m).
    rewrite (RD m Hm). exact HD.
  - destruct HS as [_ ->]. eapply keyed_sub; [apply subseq_filter|exact HD].
  - destruct HS as (_ & m & Hm & ->). eapply keyed_sub; [apply subseq_filter|]. eapply keyed_sub; [apply subseq_kills|]. fold (docs m).
    rewrite (RD m Hm). exact HD.
  - destruct HS as (_ & _ & m & Hm & E). unfold docs. rewrite E, live_kill_where. eapply keyed_sub; [apply subseq_filter|]. fold (docs m).
    rewrite (RD m Hm). exact HD.
  - destruct HS as [_ ->]. destruct HT as (K1 & K2 & <-).
    apply (keyed_batch opt (docs a) [x] K1 HD); [intros y [<-|[]]; exact K2|]. cbn [map]. constructor; [intros []|constructor].
  - destruct HS as [_ ->]. destruct HT as (K1 & K2 & K3). apply keyed_batch; assumption.
  - destruct HS as [_ HS]. rewrite (RD b HS). exact HD.
  - destruct HS as (_ & _ & E). unfold docs. rewrite E. unfold docs. rewrite <- filter_snd_live, live_filter. exact HD.
  - destruct HS as [_ ->]. exact HD.
  - destruct HS as [HS _]. rewrite (RD b HS). exact HD.
  - destruct HS as [HS _]. rewrite (RD b HS). exact HD.
  - destruct HS as [HS _]. rewrite (RD b HS). exact HD.
  - destruct HS as [HS _]. rewrite (RD b HS). exact HD.
  - destruct HS as [HS _]. rewrite (RD b HS). exact HD.
  - destruct HS as [HS _]. rewrite (RD b HS). exact HD.
  - destruct HS as [HS _]. rewrite (RD b HS). exact HD.
  - destruct HS as [HS _]. rewrite (RD b HS). exact HD.
Qed.
Lemma keyed_explained : forall opt cs a rs i l, key opt <> NoKey -> explains opt a cs rs -> keyed opt (docs a) -> Forall (by_key opt) cs ->
  nth_error cs i = Some Each -> nth_error rs i = Some (Ok (Docs l)) -> NoDup (map (key_of opt) l).
Proof.
  intros opt cs a rs i l HK H. revert i. induction H as [a|a b c v cs rs HS H IH|a c e cs HF]; intros i HD HT H1 H2.
  - destruct i; discriminate H1.
  - inversion HT as [|c' cs' HT1 HT2]; subst. destruct i as [|i]; cbn [nth_error] in *.
    + apply some_inj in H1. subst c. cbn [step] in HS. destruct HS as [_ ->]. apply some_inj in H2. inversion H2. apply HD.
    + apply (IH i); try assumption. eapply keyed_step; eassumption.
  - destruct i as [|i]; cbn [nth_error] in *; [discriminate H2|]. destruct i; discriminate H2.
Qed.
Lemma one_of_each_key : forall pol opt me cs i l, good_policy pol -> key opt <> NoKey -> Forall (by_key opt) cs -> Forall (supported opt) cs ->
  nth_error cs i = Some Each -> nth_error (fst (runs pol opt me cs (mkSt fresh (mkDir [] 0 0 None)))) i = Some (Ok (Docs l)) ->
  NoDup (map (key_of opt) l).
Proof.
  intros pol opt me cs i l HP HK HT HS H1 H2.
  eapply (keyed_explained opt cs (mkAbs [] true)); try eassumption.
  - apply (one_object pol opt me (mkDir [] 0 0 None)); [exact HP|reflexivity|exact HS].
  - split; [constructor|intros x f []].
Qed.
