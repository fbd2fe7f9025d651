From Coq Require Import List ZArith Bool Arith Lia.
From Verif Require Import Util Text_Model Text_Spec.
Import ListNotations.
Open Scope Z_scope.

Ltac len := repeat (progress (rewrite ?app_length, ?map_length, ?repeat_length, ?skipn_length, ?firstn_length; cbn [length])); repeat (progress (rewrite ?app_length, ?map_length, ?repeat_length, ?skipn_length, ?firstn_length in *; cbn [length] in *)).

(* blocks ---------------------------------------------------------------------------------------------------------------------- *)

(* the bytes s are written and the pointer is behind them; n: size of the block *)
Definition at_ (c : cur) (s : str) (n : nat) : Prop :=
  exists r, fst c = map Some s ++ r /\ snd c = length s /\ length (fst c) = n.
Definition ended (c : cur) (s : str) (n : nat) : Prop :=
  exists r, fst c = map Some (s ++ [0]) ++ r /\ snd c = length s /\ length (fst c) = n.

Lemma ended_at : forall c s n, ended c s n -> at_ c s n.
Proof.
  intros c s n (r & H1 & H2 & H3). exists (Some 0 :: r). rewrite map_app, <- app_assoc in H1. auto.
Qed.
Lemma alloc_at : forall n, at_ (alloc n, O) [] n.
Proof. intros n. exists (alloc n). cbn. split; [reflexivity|]. split; [reflexivity|]. apply repeat_length. Qed.

Lemma store_over : forall s l r i, i = length s -> (length l <= length r)%nat ->
  store (map Some s ++ r) i l = Some (map Some (s ++ l) ++ skipn (length l) r).
Proof.
  intros s l r i -> H. unfold store.
  assert (E : (length s + length l <=? length (map Some s ++ r))%nat = true) by (apply Nat.leb_le; len; lia).
  rewrite E. f_equal. rewrite firstn_app, map_length, Nat.sub_diag, firstn_O, app_nil_r.
  rewrite firstn_all2 by (len; lia). rewrite skipn_app, map_length.
  rewrite skipn_all2 by (len; lia). cbn [app].
  replace (length s + length l - length s)%nat with (length l) by lia. rewrite map_app, <- app_assoc. reflexivity.
Qed.
Lemma app_ok : forall c s n l, at_ c s n -> (length s + length l <= n)%nat ->
  exists c', app c l = Some c' /\ at_ c' (s ++ l) n.
Proof.
  intros [m i] s n l (r & H1 & H2 & H3) H. cbn [fst snd] in *. subst m i. unfold app. cbn [fst snd].
  assert (Hr : (length l <= length r)%nat) by (len; lia).
  rewrite store_over by auto. cbn [obind]. eexists. split; [reflexivity|]. eexists. split; [reflexivity|].
  cbn [fst snd]. len. split; lia.
Qed.
Lemma nul_ok : forall c s n, at_ c s n -> (length s < n)%nat -> exists c', nul c = Some c' /\ ended c' s n.
Proof.
  intros [m i] s n (r & H1 & H2 & H3) H. cbn [fst snd] in *. subst m i. unfold nul. cbn [fst snd].
  assert (Hr : (length [0] <= length r)%nat) by (len; lia).
  rewrite store_over by auto. cbn [obind]. eexists. split; [reflexivity|]. eexists. split; [reflexivity|].
  cbn [fst snd]. len. split; lia.
Qed.
Lemma print_ok : forall c s n l, at_ c s n -> (length s + length l < n)%nat -> exists c', print c l = Some c' /\ ended c' (s ++ l) n.
Proof.
  intros c s n l H L. destruct (app_ok c s n l H) as (c1 & E1 & H1); [lia|].
  destruct (nul_ok c1 _ n H1) as (c2 & E2 & H2); [len; lia|]. exists c2. unfold print. rewrite E1. auto.
Qed.
Lemma cstr_app : forall s r, clean s -> cstr (map Some (s ++ [0]) ++ r) = Some s.
Proof.
  intros s r H. induction H as [|c s Hc Hs IH]; [reflexivity|]. cbn [List.app map cstr]. apply Z.eqb_neq in Hc. rewrite Hc, IH. reflexivity.
Qed.
Lemma ended_cstr : forall c s n, ended c s n -> clean s -> cstr (fst c) = Some s.
Proof. intros c s n (r & H & _) Hs. rewrite H. apply cstr_app. exact Hs. Qed.
Lemma resize_at : forall m i s n n', at_ (m, i) s n -> (n <= n')%nat -> at_ (resize n' m, i) s n'.
Proof.
  intros m i s n n' (r & H1 & H2 & H3) H. cbn [fst snd] in *. subst m i. unfold resize.
  rewrite firstn_all2 by lia. rewrite <- app_assoc. eexists. split; [reflexivity|]. split; [reflexivity|]. cbn [fst]. len. lia.
Qed.
Lemma resize_ended : forall c s n n', ended c s n -> (n <= n')%nat -> ended (resize n' (fst c), snd c) s n'.
Proof.
  intros [m i] s n n' (r & H1 & H2 & H3) H. cbn [fst snd] in *. subst m i. unfold resize.
  rewrite firstn_all2 by lia. rewrite <- app_assoc. eexists. split; [reflexivity|]. split; [reflexivity|]. cbn [fst]. len. lia.
Qed.
(* cut down to what is needed *)
Lemma shrink_at : forall m i s n n', at_ (m, i) s n -> (length s <= n')%nat -> at_ (resize n' m, i) s n'.
Proof.
  intros m i s n n' (r & H1 & H2 & H3) H. cbn [fst snd] in *. subst m i. unfold resize.
  rewrite firstn_app, map_length, firstn_all2 by (len; lia). rewrite <- app_assoc. eexists. split; [reflexivity|]. split; [reflexivity|].
  cbn [fst]. len. lia.
Qed.
Lemma set_last : forall c s x y n, at_ c (s ++ [x]) n ->
  exists m, store (fst c) (snd c - 1) [y] = Some m /\ at_ (m, snd c) (s ++ [y]) n.
Proof.
  intros [m i] s x y n (r & H1 & H2 & H3). cbn [fst snd] in *. subst m i. rewrite map_app, <- app_assoc in *. cbn [map List.app] in *.
  rewrite store_over by (len; lia). eexists. split; [reflexivity|]. cbn [length skipn]. exists r. cbn [fst snd].
  len. split; [reflexivity|]. split; lia.
Qed.

(* numbers ------------------------------------------------------------------------------------------------------------------------ *)

Lemma drop0_app : forall s c, drop0 (s ++ [c]) = if c =? 48 then drop0 s else s ++ [c].
Proof.
  intros s c. induction s as [|d s IH]; cbn [List.app drop0]; [destruct (c =? 48); reflexivity|].
  rewrite IH. destruct (c =? 48); [reflexivity|]. destruct (s ++ [c]) eqn:E; [destruct s; discriminate E|reflexivity].
Qed.
Lemma strip_app : forall s c, s <> [] -> strip (s ++ [c]) = if c =? 48 then strip s else s ++ [c].
Proof.
  intros [|d s] c H; [congruence|]. cbn [List.app strip]. rewrite drop0_app. destruct (c =? 48); reflexivity.
Qed.
Lemma drop0_prefix : forall s, exists r, s = drop0 s ++ r.
Proof.
  intros s. induction s as [|c s (r & IH)]; [exists []; reflexivity|]. cbn [drop0]. destruct (drop0 s) as [|d t] eqn:E.
  - destruct (c =? 48); [exists (c :: s)|exists s]; reflexivity.
  - exists r. cbn [List.app] in *. rewrite IH at 1. reflexivity.
Qed.
Lemma strip_prefix : forall s, exists r, s = strip s ++ r.
Proof. intros [|c s]; [exists []; reflexivity|]. destruct (drop0_prefix s) as (r & H). exists r. cbn [strip List.app]. rewrite <- H. reflexivity. Qed.

Lemma up_to_e_app : forall a r, Forall (fun c => c <> 101) a -> (r = [] \/ exists t, r = 101 :: t) -> up_to_e (a ++ r) = length a.
Proof.
  intros a r H Hr. induction H as [|c a Hc Ha IH]; cbn [List.app up_to_e length].
  - destruct Hr as [->|(t & ->)]; reflexivity.
  - apply Z.eqb_neq in Hc. rewrite Hc, IH. reflexivity.
Qed.
Lemma before_1 : forall a c r, before (a ++ c :: r) (length a + 1) 1 = Some c.
Proof.
  intros a c r. unfold before. replace (1 <=? length a + 1)%nat with true by (symmetry; apply Nat.leb_le; lia).
  replace (length a + 1 - 1)%nat with (length a) by lia. rewrite nth_error_app2, Nat.sub_diag by lia. reflexivity.
Qed.
Lemma before_2 : forall a b c r, before (a ++ b :: c :: r) (length a + 2) 2 = Some b.
Proof.
  intros a b c r. unfold before. replace (2 <=? length a + 2)%nat with true by (symmetry; apply Nat.leb_le; lia).
  replace (length a + 2 - 2)%nat with (length a) by lia. rewrite nth_error_app2, Nat.sub_diag by lia. reflexivity.
Qed.
Lemma back_eq : forall s p, back s p =
  (do a <- before s p 1;
   if a =? 48 then do b <- before s p 2; if isdigit b then match p with S p' => back s p' | O => None end else Some p
   else Some p).
Proof. intros s p. destruct p; reflexivity. Qed.
Lemma back_ok : forall fp a ex, Forall digit fp -> fp <> [] ->
  back (a ++ 46 :: fp ++ ex) (length a + 1 + length fp) = Some (length a + 1 + length (strip fp))%nat.
Proof.
  intros fp a. induction fp as [|c fp IH] using rev_ind; intros ex H N; [congruence|].
  apply Forall_app in H. destruct H as [H Hc]. inversion Hc as [|x y Hd _]; subst. clear Hc.
  rewrite back_eq. rewrite <- app_assoc. cbn [List.app].
  assert (B1 : before (a ++ 46 :: fp ++ c :: ex) (length a + 1 + length (fp ++ [c])) 1 = Some c).
  { replace (a ++ 46 :: fp ++ c :: ex) with ((a ++ 46 :: fp) ++ c :: ex) by (rewrite <- app_assoc; reflexivity).
    replace (length a + 1 + length (fp ++ [c]))%nat with (length (a ++ 46%Z :: fp) + 1)%nat by (len; lia). apply before_1. }
  rewrite B1. cbn [obind]. destruct fp as [|d fp0] using rev_ind.
  - cbn [List.app length strip drop0].
    assert (B2 : before (a ++ 46 :: c :: ex) (length a + 1 + 1) 2 = Some 46).
    { replace (length a + 1 + 1)%nat with (length a + 2)%nat by lia. apply before_2. }
    rewrite B2. destruct (c =? 48); reflexivity.
  - clear IHfp0. rewrite strip_app by (destruct fp0; discriminate). destruct (c =? 48) eqn:E; [|reflexivity].
    assert (B2 : before (a ++ 46 :: (fp0 ++ [d]) ++ c :: ex) (length a + 1 + length ((fp0 ++ [d]) ++ [c])) 2 = Some d).
    { replace (a ++ 46 :: (fp0 ++ [d]) ++ c :: ex) with ((a ++ 46 :: fp0) ++ d :: c :: ex) by (rewrite <- ?app_assoc; reflexivity).
      replace (length a + 1 + length ((fp0 ++ [d]) ++ [c]))%nat with (length (a ++ 46%Z :: fp0) + 2)%nat by (len; lia). apply before_2. }
    rewrite B2. cbn [obind]. pose proof H as Hd'. apply Forall_app in Hd'. destruct Hd' as [_ Hd']. inversion Hd' as [|x y Hx _]; subst.
    rewrite Hx. replace (length a + 1 + length ((fp0 ++ [d]) ++ [c]))%nat with (S (length a + 1 + length (fp0 ++ [d])))%nat by (len; lia).
    apply IH; [exact H|]. destruct fp0; discriminate.
Qed.
Definition lead (t : image) : str := (if i_neg t then [45] else []) ++ i_int t.
Lemma text_split : forall t, text t = lead t ++ 46 :: i_frac t ++ i_exp t.
Proof. intros t. unfold text, lead. rewrite <- app_assoc. reflexivity. Qed.
Lemma digit_not_e : forall s, Forall digit s -> Forall (fun c => c <> 101) s.
Proof.
  intros s H. eapply Forall_impl; [|exact H]. intros c Hc. unfold digit, isdigit in Hc. apply andb_true_iff in Hc.
  destruct Hc as [H1 H2]. apply Z.leb_le in H1, H2. lia.
Qed.
Lemma digit_clean : forall s, Forall digit s -> clean s.
Proof.
  intros s H. eapply Forall_impl; [|exact H]. intros c Hc. unfold digit, isdigit in Hc. apply andb_true_iff in Hc.
  destruct Hc as [H1 H2]. apply Z.leb_le in H1, H2. lia.
Qed.
Lemma lead_not_e : forall t, printed t -> Forall (fun c => c <> 101) (lead t).
Proof.
  intros t (_ & H & _). unfold lead. apply Forall_app. split; [|apply digit_not_e; exact H].
  destruct (i_neg t); repeat constructor; discriminate.
Qed.
Lemma text_e : forall t, printed t -> up_to_e (text t) = (length (lead t) + 1 + length (i_frac t))%nat.
Proof.
  intros t H. pose proof H as (_ & _ & H2 & H3 & _). rewrite text_split.
  replace (lead t ++ 46 :: i_frac t ++ i_exp t) with ((lead t ++ 46 :: i_frac t) ++ i_exp t) by (rewrite <- app_assoc; reflexivity).
  rewrite up_to_e_app; [len; lia| |].
  - apply Forall_app. split; [apply lead_not_e; exact H|]. constructor; [discriminate|]. apply digit_not_e. exact H2.
  - destruct H3 as [H3|(r & H3 & _)]; [left; exact H3|right; exists r; exact H3].
Qed.
Lemma last_of : forall t, printed t ->
  before (text t) (up_to_e (text t)) 1 = Some (last (i_frac t) 46).
Proof.
  intros t H. rewrite text_e by exact H. rewrite text_split. destruct (i_frac t) as [|c fp] using rev_ind; cbn [List.app length last].
  - rewrite Nat.add_0_r. apply before_1.
  - clear IHfp. rewrite last_last. rewrite <- app_assoc. cbn [List.app].
    replace (lead t ++ 46 :: fp ++ c :: i_exp t) with ((lead t ++ 46 :: fp) ++ c :: i_exp t) by (rewrite <- app_assoc; reflexivity).
    replace (length (lead t) + 1 + length (fp ++ [c]))%nat with (length (lead t ++ 46%Z :: fp) + 1)%nat by (len; lia). apply before_1.
Qed.
Lemma last_digit : forall s d, Forall digit s -> s <> [] -> isdigit (last s d) = true.
Proof.
  intros s d H N. destruct s as [|c s] using rev_ind; [congruence|]. rewrite last_last. apply Forall_app in H. destruct H as [_ H].
  inversion H; subst. assumption.
Qed.
Definition shown (t : image) : str := lead t ++ [46] ++ strip (i_frac t) ++ i_exp t.
Lemma number_shown : forall g e, number (Finite g e) = shown (match i_frac g with [] => e | _ => g end).
Proof. intros g e. unfold number, shown, lead. destruct (i_frac g); rewrite <- app_assoc; reflexivity. Qed.
Lemma strip_length : forall s, (length (strip s) <= length s)%nat.
Proof. intros s. destruct (strip_prefix s) as (r & H). apply (f_equal (@length Z)) in H. len. lia. Qed.
Lemma shown_length : forall t, (length (shown t) <= length (text t))%nat.
Proof. intros t. rewrite text_split. unfold shown. pose proof (strip_length (i_frac t)). len. lia. Qed.
Lemma number_length : forall x, finite x -> (length (number x) <= 15)%nat.
Proof.
  intros [g e| |] H; try (cbn; lia). destruct H as ((_ & _ & _ & _ & H1) & (_ & _ & _ & _ & H2) & _). rewrite number_shown.
  destruct (i_frac g); [pose proof (shown_length e)|pose proof (shown_length g)]; lia.
Qed.
Lemma shown_clean : forall t, printed t -> clean (shown t).
Proof.
  intros t (_ & H1 & H2 & H3 & _). unfold shown, lead, clean. apply Forall_app. split; [apply Forall_app; split|].
  - destruct (i_neg t); repeat constructor; discriminate.
  - apply digit_clean. exact H1.
  - apply Forall_app. split; [repeat constructor; discriminate|]. apply Forall_app. split.
    + destruct (strip_prefix (i_frac t)) as (r & E). apply digit_clean in H2. rewrite E in H2. apply Forall_app in H2. apply H2.
    + destruct H3 as [->|(r & -> & Hr)]; constructor; [discriminate|exact Hr].
Qed.
Lemma finite_clean : forall x, finite x -> clean (number x).
Proof.
  intros [g e| |] H; try destruct H. rewrite number_shown. destruct H0 as [H0 _].
  destruct (i_frac g); apply shown_clean; assumption.
Qed.

(* the end of dbl_to_s: the image t is at s *)
Lemma trim_ok : forall t s r, printed t -> i_frac t <> [] ->
  exists p m, back (text t) (up_to_e (text t)) = Some p /\
    store (map Some (s ++ text t ++ [0]) ++ r) (length s + p) (skipn (up_to_e (text t)) (text t) ++ [0]) = Some m /\
    exists r', m = map Some (s ++ shown t ++ [0]) ++ r' /\ length m = (length s + length (text t) + 1 + length r)%nat.
Proof.
  intros t s r H N. pose proof H as (_ & _ & H2 & _). pose proof (text_e t H) as E.
  destruct (strip_prefix (i_frac t)) as (z & Ez).
  assert (L : length (i_frac t) = (length (strip (i_frac t)) + length z)%nat) by (rewrite Ez at 1; len; reflexivity).
  exists (length (lead t) + 1 + length (strip (i_frac t)))%nat.
  assert (Ek : skipn (up_to_e (text t)) (text t) = i_exp t).
  { rewrite E. rewrite text_split.
    replace (lead t ++ 46 :: i_frac t ++ i_exp t) with ((lead t ++ 46 :: i_frac t) ++ i_exp t) by (rewrite <- app_assoc; reflexivity).
    rewrite skipn_app. rewrite skipn_all2 by (len; lia). replace (length (lead t) + 1 + length (i_frac t) - length (lead t ++ 46%Z :: i_frac t))%nat with O by (len; lia). reflexivity. }
  rewrite Ek.
  assert (Em : map Some (s ++ text t ++ [0]) ++ r = map Some (s ++ lead t ++ [46] ++ strip (i_frac t)) ++ map Some (z ++ i_exp t ++ [0]) ++ r).
  { rewrite (app_assoc (map Some (s ++ lead t ++ [46] ++ strip (i_frac t)))), <- map_app. f_equal. f_equal. rewrite text_split.
    rewrite Ez at 1. rewrite <- !app_assoc. cbn [List.app]. rewrite <- !app_assoc. reflexivity. }
  assert (Lt : length (text t) = (length (lead t) + 1 + length (i_frac t) + length (i_exp t))%nat) by (rewrite text_split; len; lia).
  eexists. split.
  { rewrite E, text_split. rewrite back_ok by assumption. reflexivity. }
  split.
  { rewrite Em. rewrite store_over by (len; lia). reflexivity. }
  eexists. split.
  - f_equal. f_equal. unfold shown. rewrite <- !app_assoc. reflexivity.
  - len. lia.
Qed.
Lemma dbl_ok : forall c s n x, at_ c s n -> finite x -> (length s + 16 <= n)%nat ->
  exists m, dbl_to_s (fst c) (snd c) x = Some m /\ ended (m, (length s + length (number x))%nat) (s ++ number x) n.
Proof.
  intros [m i] s n x (r & H1 & H2 & H3) Hx Hn. destruct x as [g e| |]; try destruct Hx. destruct H0 as [He Ne]. rename H into Hg.
  cbn [fst snd] in *. subst m i. pose proof Hg as (_ & _ & Dg & _ & Lg). pose proof He as (_ & _ & De & _ & Le).
  unfold dbl_to_s. rewrite store_over by (len; lia). cbn [obind]. rewrite last_of by exact Hg. cbn [obind].
  rewrite number_shown.
  destruct (i_frac g) as [|c0 fp] eqn:Eg.
  - cbn [last]. change (isdigit 46) with false. cbv iota.
    assert (Er : exists r2, map Some (s ++ text g ++ [0]) ++ skipn (length (text g ++ [0])) r = map Some s ++ r2 /\ length r2 = length r).
    { exists (map Some (text g ++ [0]) ++ skipn (length (text g ++ [0])) r). rewrite (map_app Some s), <- app_assoc. split; [reflexivity|]. len. lia. }
    destruct Er as (r2 & -> & Lr2). rewrite store_over by (len; lia). cbn [obind].
    destruct (trim_ok e s (skipn (length (text e ++ [0])) r2) He Ne) as (p & m & E1 & E2 & r' & E3 & E4).
    rewrite E1. cbn [obind]. rewrite E2. exists m. split; [reflexivity|]. exists r'. cbn [fst snd]. rewrite <- app_assoc. split; [exact E3|].
    len. split; [reflexivity|]. rewrite E4. len. lia.
  - rewrite <- Eg in *. assert (Ng : i_frac g <> []) by (rewrite Eg; discriminate).
    assert (EL : isdigit (last (i_frac g) 46) = true) by (apply last_digit; assumption).
    rewrite EL. cbv iota. cbn [obind].
    destruct (trim_ok g s (skipn (length (text g ++ [0])) r) Hg Ng) as (p & m & E1 & E2 & r' & E3 & E4).
    rewrite E1. cbn [obind]. rewrite E2. exists m. split; [reflexivity|]. exists r'. cbn [fst snd]. rewrite <- app_assoc. split; [exact E3|].
    len. split; [reflexivity|]. rewrite E4. len. lia.
Qed.

Lemma cstr_end : forall m i s t n, ended (m, i) (s ++ t) n -> clean t -> cstr (skipn (length s) m) = Some t.
Proof.
  intros m i s t n (r & H & _) Ht. cbn [fst] in H. rewrite H. rewrite <- app_assoc, (map_app Some s), <- app_assoc.
  rewrite skipn_app, map_length, Nat.sub_diag. rewrite skipn_all2 by (len; lia). cbn [List.app skipn]. apply cstr_app. exact Ht.
Qed.
Lemma clean_app : forall s t, clean s -> clean t -> clean (s ++ t).
Proof. intros s t H1 H2. apply Forall_app. auto. Qed.
Lemma tail_clean : forall b, finite_b b -> clean (tail b).
Proof. intros [x|] H; [|constructor]. constructor; [discriminate|]. apply finite_clean. exact H. Qed.

Lemma boosted_ok : forall c s n b, (match b with None => ended c s n | Some _ => at_ c s n end) -> finite_b b -> (length s + 17 <= n)%nat -> clean s ->
  exists m, boosted c b = Some m /\ cstr m = Some (s ++ tail b).
Proof.
  intros c s n [x|] H Hb Hn Hs; unfold boosted.
  - destruct (app_ok c s n [94] H) as (c' & E1 & H1); [len; lia|]. rewrite E1. cbn [obind].
    destruct (dbl_ok c' _ n x H1 Hb) as (m & E2 & H2); [len; lia|]. exists m. split; [exact E2|].
    pose proof (ended_cstr _ _ _ H2) as E3. cbn [fst] in E3. rewrite E3, <- app_assoc; [reflexivity|].
    apply clean_app; [apply clean_app; [exact Hs|repeat constructor; discriminate]|apply finite_clean, Hb].
  - exists (fst c). split; [reflexivity|]. cbn [tail]. rewrite app_nil_r. eapply ended_cstr; eassumption.
Qed.
Lemma boosted_ended : forall c s n b, ended c s n -> finite_b b -> (length s + 17 <= n)%nat -> clean s ->
  exists m, boosted c b = Some m /\ cstr m = Some (s ++ tail b).
Proof. intros c s n b H Hb Hn Hs. eapply boosted_ok; try eassumption. destruct b; [apply ended_at|]; exact H. Qed.

(* %d *)
Lemma digits_len : forall f n, (length (digits f n) <= S f)%nat.
Proof. intros f. induction f as [|f IH]; intros n; cbn [digits]; [cbn; lia|]. destruct (n <? 10); [cbn; lia|]. specialize (IH (n / 10)). len. lia. Qed.
Lemma dec_len : forall z, (length (dec z) <= 20)%nat.
Proof. intros z. unfold dec. destruct (z <? 0); cbn [length]; [pose proof (digits_len 18 (- z))|pose proof (digits_len 18 z)]; lia. Qed.
Lemma digits_clean : forall f n, 0 <= n -> clean (digits f n).
Proof.
  intros f. induction f as [|f IH]; intros n H; cbn [digits]; [constructor; [lia|constructor]|].
  destruct (n <? 10) eqn:E; [constructor; [lia|constructor]|]. apply clean_app.
  - apply IH. apply Z.div_pos; lia.
  - constructor; [|constructor]. pose proof (Z.mod_pos_bound n 10). lia.
Qed.
Lemma dec_clean : forall z, clean (dec z).
Proof.
  intros z. unfold dec. destruct (z <? 0) eqn:E; [constructor; [discriminate|]|]; apply digits_clean; lia.
Qed.

(* strfmt *)
Definition piece_s (p : piece) : str := match p with Lit s => s | Str s => s | Num x => number x | Int z => dec z end.
Definition piece_fine (p : piece) : Prop := match p with Lit s => clean s | Str s => clean s | Num x => finite x | Int z => True end.
Lemma fmt_ok : forall ps c s n, Forall piece_fine ps -> at_ c s n -> clean s -> (length s + fmt_len ps + 1 <= n)%nat ->
  exists c' n', fmt ps c = Some c' /\ ended c' (s ++ concat (map piece_s ps)) n'.
Proof.
  intros ps. induction ps as [|p ps IH]; intros c s n HF HC Hs Hn; cbn [fmt fmt_len fold_right map concat] in *.
  - destruct (nul_ok c s n HC) as (c' & E & H); [lia|]. exists c', n. rewrite app_nil_r. auto.
  - fold (fmt_len ps) in *. inversion HF as [|p' ps' Hp HF']; subst. rewrite app_assoc.
    assert (G : exists c' n', fmt1 p c = Some c' /\ at_ c' (s ++ piece_s p) n' /\ clean (piece_s p) /\ (length (s ++ piece_s p) + fmt_len ps + 1 <= n')%nat).
    { unfold fmt1. assert (Ln : length (fst c) = n) by (destruct HC as (r & _ & _ & H); exact H).
      destruct p as [l|l|x|z]; cbn [piece_s piece_fine] in *.
      - destruct (app_ok c s n l HC) as (c' & E & H); [lia|]. exists c', n. split; [exact E|]. split; [exact H|]. split; [exact Hp|]. len. lia.
      - destruct c as [m i]. cbn [fst snd] in *.
        destruct (app_ok (resize (length m + length l) m, i) s (n + length l)%nat l) as (c' & E & H).
        { rewrite Ln. eapply resize_at; [exact HC|lia]. }
        { lia. }
        exists c', (n + length l)%nat. split; [exact E|]. split; [exact H|]. split; [exact Hp|]. len. lia.
      - destruct (nul_ok c s n HC) as (c1 & E1 & H1); [lia|]. rewrite E1. cbn [obind]. rewrite Ln. cbv zeta.
        assert (H2 : ended (resize (n + 32) (fst c1), snd c1) s (n + 32)) by (eapply resize_ended; [exact H1|lia]).
        pose proof (ended_cstr _ _ _ H2 Hs) as E2. cbn [fst] in E2. rewrite E2. cbn [obind].
        pose proof (number_length x Hp) as Lx.
        destruct (dbl_ok (resize (n + 32) (fst c1), length s) s (n + 32)%nat x) as (m & E3 & H3).
        { destruct (ended_at _ _ _ H2) as (r & R1 & R2 & R3). exists r. cbn [fst snd] in *. auto. }
        { exact Hp. }
        { lia. }
        cbn [fst snd] in E3. rewrite E3. cbn [obind]. rewrite (cstr_end _ _ _ _ _ H3 (finite_clean x Hp)). cbn [obind].
        eexists. exists (n + 32)%nat. split; [reflexivity|]. split; [apply ended_at; exact H3|]. split; [apply finite_clean, Hp|]. len. lia.
      - destruct (nul_ok c s n HC) as (c1 & E1 & H1); [lia|]. rewrite E1. cbn [obind]. rewrite Ln. cbv zeta.
        assert (H2 : ended (resize (n + 20) (fst c1), snd c1) s (n + 20)) by (eapply resize_ended; [exact H1|lia]).
        pose proof (ended_cstr _ _ _ H2 Hs) as E2. cbn [fst] in E2. rewrite E2. cbn [obind].
        pose proof (dec_len z) as Lz.
        destruct (print_ok (resize (n + 20) (fst c1), length s) s (n + 20)%nat (dec z)) as (c' & E3 & H3).
        { destruct (ended_at _ _ _ H2) as (r & R1 & R2 & R3). exists r. cbn [fst snd] in *. auto. }
        { lia. }
        exists c', (n + 20)%nat. split; [exact E3|]. split; [apply ended_at; exact H3|]. split; [apply dec_clean|]. len. lia. }
    destruct G as (c' & n' & E & H & Hc & L). rewrite E. cbn [obind].
    apply IH with (n := n'); try assumption. apply clean_app; assumption.
Qed.
Lemma pieces_clean : forall ps, Forall piece_fine ps -> clean (concat (map piece_s ps)).
Proof.
  intros ps H. induction H as [|p ps Hp H IH]; [constructor|]. cbn [map concat]. apply clean_app; [|exact IH].
  destruct p; cbn [piece_s piece_fine] in *; auto using finite_clean, dec_clean.
Qed.
Lemma strfmt_ok : forall ps, Forall piece_fine ps -> exists m, strfmt ps = Some m /\ cstr m = Some (concat (map piece_s ps)).
Proof.
  intros ps H. destruct (fmt_ok ps (alloc (fmt_len ps + 1), O) [] (fmt_len ps + 1)%nat H) as (c & n & E & HE).
  - apply alloc_at.
  - constructor.
  - cbn [length]. lia.
  - exists (fst c). unfold strfmt. rewrite E. split; [reflexivity|]. eapply ended_cstr; [exact HE|]. apply pieces_clean. exact H.
Qed.
