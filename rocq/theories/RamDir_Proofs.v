From Coq Require Import String.
From Verif Require Import Util Codec_Model Seg_Model Seg_Proofs RamDir_Model RamDir_Spec.
Open Scope Z_scope.

(* ---------- cells *)
Lemma set_length {A} (l : list A) p x : length (set_nth l p x) = length l.
Proof. revert p. induction l as [|a l IH]; intros [|p]; cbn; auto. Qed.
Lemma cell_same {A} (l : list (option A)) p o : (p < length l)%nat -> cell (set_nth l p o) p = o.
Proof. unfold cell. revert p. induction l as [|a l IH]; intros [|p] Hp; cbn in *; try lia; try (apply IH; lia); destruct o; auto. Qed.
Lemma cell_other {A} (l : list (option A)) p q o : q <> p -> cell (set_nth l p o) q = cell l q.
Proof. unfold cell. revert p q. induction l as [|a l IH]; intros [|p] [|q] Hp; cbn in *; try lia; auto. Qed.
Lemma cell_lt {A} (l : list (option A)) p x : cell l p = Some x -> (p < length l)%nat.
Proof. unfold cell. destruct (nth_error l p) as [[y|]|] eqn:E; try discriminate. intros _. apply nth_error_Some. congruence. Qed.
Lemma cell_new {A} (l : list (option A)) x : cell (l ++ [Some x]) (length l) = Some x.
Proof. unfold cell. rewrite nth_error_app2, Nat.sub_diag; auto. Qed.
Lemma cell_old {A} (l : list (option A)) x p : p <> length l -> cell (l ++ [Some x]) p = cell l p.
Proof.
  intros Hp. unfold cell. destruct (Nat.lt_ge_cases p (length l)) as [H|H]; [rewrite nth_error_app1; auto|]. rewrite (proj2 (nth_error_None l p)) by lia.
  rewrite (proj2 (nth_error_None _ p)); auto. rewrite app_length. cbn. lia.
Qed.
Lemma cell_keep {A} (l : list (option A)) x p y : cell l p = Some y -> cell (l ++ [Some x]) p = Some y.
Proof. intros E. rewrite cell_old; auto. apply cell_lt in E. lia. Qed.
Lemma cell_inv {A} (l : list (option A)) x p y : cell (l ++ [Some x]) p = Some y -> p = length l /\ y = x \/ p <> length l /\ cell l p = Some y.
Proof. destruct (Nat.eq_dec p (length l)) as [->|H]; [rewrite cell_new; intros E; apply some_inj in E; auto|rewrite cell_old by auto; auto]. Qed.
Lemma nth_set {A} (l : list A) p x q d : (p < length l)%nat -> nth q (set_nth l p x) d = if Nat.eq_dec q p then x else nth q l d.
Proof.
  revert p q. induction l as [|a l IH]; intros p q Hp; [cbn in Hp; lia|]. destruct p as [|p], q as [|q]; cbn [set_nth nth length] in *.
  - destruct (Nat.eq_dec 0 0); [auto|lia].
  - destruct (Nat.eq_dec (S q) 0); [lia|auto].
  - destruct (Nat.eq_dec 0 (S p)); [lia|auto].
  - rewrite IH by lia. destruct (Nat.eq_dec q p), (Nat.eq_dec (S q) (S p)); auto; lia.
Qed.

(* ---------- the heaps: c is the number of references that there are, P the files just dereferenced and not yet looked at *)
Record core (ss : strs) (fs : files) (B : list nat) (data : list (list Z)) (c : nat -> nat) (P : list nat) : Prop := mkCore {
  co_len : length fs = length data;
  co_live : forall f x, cell fs f = Some x -> (0 < c f \/ In f P)%nat /\ rf_refs x = c f /\ rf_data x = nth f data [] /\ (exists n, cell ss (rf_name x) = Some n) /\ ~ In (rf_name x) B;
  co_dead : forall f, cell fs f = None -> c f = 0%nat /\ ~ In f P;
  co_inj : forall f g x y, cell fs f = Some x -> cell fs g = Some y -> rf_name x = rf_name y -> f = g;
  co_bor : forall p, In p B -> exists n, cell ss p = Some n;
  co_all : forall p n, cell ss p = Some n -> In p B \/ exists f x, cell fs f = Some x /\ rf_name x = p }.
Lemma core_ext ss fs B data c c' P : core ss fs B data c P -> (forall f, c' f = c f) -> core ss fs B data c' P.
Proof.
  intros [H1 H2 H3 H4 H5 H6] E. split; auto.
  - intros f x Hx. rewrite E. auto.
  - intros f Hf. rewrite E. auto.
Qed.
Definition up (c : nat -> nat) (f : nat) : nat -> nat := fun g => if (g =? f)%nat then S (c g) else c g.
Definition down (c : nat -> nat) (f : nat) : nat -> nat := fun g => if (g =? f)%nat then pred (c g) else c g.
(* the names of files are left as they are *)
Definition same_names (ss : strs) (fs : files) (ss' : strs) (fs' : files) (B : list nat) : Prop :=
  (forall g x', cell fs' g = Some x' -> exists x, cell fs g = Some x /\ rf_name x' = rf_name x /\ cell ss' (rf_name x) = cell ss (rf_name x)) /\ (forall p, In p B -> cell ss' p = cell ss p).
Lemma same_refl ss fs B : same_names ss fs ss fs B.
Proof. split; eauto. Qed.
Lemma same_trans ss fs ss1 fs1 ss2 fs2 B : same_names ss fs ss1 fs1 B -> same_names ss1 fs1 ss2 fs2 B -> same_names ss fs ss2 fs2 B.
Proof.
  intros [A1 A2] [B1 B2]. split.
  - intros g x2 E2. destruct (B1 g x2 E2) as (x1 & E1 & N1 & S1). destruct (A1 g x1 E1) as (x & E & N & S). exists x. split; auto. split; [congruence|]. rewrite <- N in S |- *. congruence.
  - intros p Hp. rewrite B2, A2; auto.
Qed.
Lemma ref_core ss fs B data c P t o f x : core ss fs B data c P -> cell fs f = Some x ->
  exists fs', ref (mkRam ss fs t o) f = Some (mkRam ss fs' t o) /\ core ss fs' B data (up c f) P /\ same_names ss fs ss fs' B /\ (forall g, cell fs' g = None <-> cell fs g = None).
Proof.
  intros [H1 H2 H3 H4 H5 H6] E. unfold ref. cbn [r_files]. rewrite E. cbn [obind]. unfold set_file. cbn [r_strs r_files r_tab r_open]. set (x' := mkRf (rf_name x) (rf_data x) (S (rf_refs x))).
  assert (L : (f < length fs)%nat) by (eapply cell_lt; eauto). exists (set_nth fs f (Some x')). split; [reflexivity|].
  assert (C : forall g, cell (set_nth fs f (Some x')) g = if (g =? f)%nat then Some x' else cell fs g).
  { intros g. destruct (Nat.eqb_spec g f) as [->|Hg]; [apply cell_same; auto|apply cell_other; auto]. }
  split; [split|split; [split|]].
  - rewrite set_length. auto.
  - intros g y. rewrite C. unfold up. destruct (Nat.eqb_spec g f) as [->|Hg]; [|apply H2]. intros Ey. apply some_inj in Ey. subst y. destruct (H2 f x E) as (A1 & A2 & A3). cbn. split; [left; lia|]. split; [congruence|]. exact A3.
  - intros g. rewrite C. unfold up. destruct (Nat.eqb_spec g f) as [->|Hg]; [discriminate|apply H3].
  - intros g h y z. rewrite !C. destruct (Nat.eqb_spec g f) as [->|Hg], (Nat.eqb_spec h f) as [->|Hh]; auto.
    + intros Ey Ez Hn. apply some_inj in Ey. subst y. cbn in Hn. eapply H4; eauto.
    + intros Ey Ez Hn. apply some_inj in Ez. subst z. cbn in Hn. eapply H4; eauto.
    + apply H4.
  - auto.
  - intros p n Hp. destruct (H6 p n Hp) as [|(g & y & Ey & Hy)]; auto. right. destruct (Nat.eq_dec g f) as [->|Hg].
    + exists f, x'. rewrite C, Nat.eqb_refl. split; auto. cbn. congruence.
    + exists g, y. rewrite C, (proj2 (Nat.eqb_neq g f)) by auto. auto.
  - intros g y. rewrite C. destruct (Nat.eqb_spec g f) as [->|Hg]; [intros Ey; apply some_inj in Ey; subst y; exists x; auto|intros Ey; exists y; auto].
  - auto.
  - intros g. rewrite C. destruct (Nat.eqb_spec g f) as [->|Hg]; [rewrite E; split; discriminate|tauto].
Qed.
Lemma deref_core ss fs B data c P t o f : core ss fs B data c P -> (0 < c f)%nat ->
  exists fs', deref (mkRam ss fs t o) f = Some (mkRam ss fs' t o) /\ core ss fs' B data (down c f) (f :: P) /\ same_names ss fs ss fs' B.
Proof.
  intros [H1 H2 H3 H4 H5 H6] Hc. destruct (cell fs f) as [x|] eqn:E; [|destruct (H3 f E); lia]. unfold deref. cbn [r_files]. rewrite E. cbn [obind]. unfold set_file. cbn [r_strs r_files r_tab r_open]. set (x' := mkRf (rf_name x) (rf_data x) (pred (rf_refs x))).
  assert (L : (f < length fs)%nat) by (eapply cell_lt; eauto). exists (set_nth fs f (Some x')). split; [reflexivity|].
  assert (C : forall g, cell (set_nth fs f (Some x')) g = if (g =? f)%nat then Some x' else cell fs g).
  { intros g. destruct (Nat.eqb_spec g f) as [->|Hg]; [apply cell_same; auto|apply cell_other; auto]. }
  split; [split|split].
  - rewrite set_length. auto.
  - intros g y. rewrite C. unfold down. destruct (Nat.eqb_spec g f) as [->|Hg].
    + intros Ey. apply some_inj in Ey. subst y. destruct (H2 f x E) as (A1 & A2 & A3). cbn. split; [right; auto|]. split; [congruence|]. exact A3.
    + intros Ey. destruct (H2 g y Ey) as (A1 & A2). split; [cbn; tauto|exact A2].
  - intros g. rewrite C. unfold down. destruct (Nat.eqb_spec g f) as [->|Hg]; [discriminate|]. intros Ey. destruct (H3 g Ey). split; auto. cbn. intros [K|K]; auto.
  - intros g h y z. rewrite !C. destruct (Nat.eqb_spec g f) as [->|Hg], (Nat.eqb_spec h f) as [->|Hh]; auto.
    + intros Ey Ez Hn. apply some_inj in Ey. subst y. cbn in Hn. eapply H4; eauto.
    + intros Ey Ez Hn. apply some_inj in Ez. subst z. cbn in Hn. eapply H4; eauto.
    + apply H4.
  - auto.
  - intros p n Hp. destruct (H6 p n Hp) as [|(g & y & Ey & Hy)]; auto. right. destruct (Nat.eq_dec g f) as [->|Hg].
    + exists f, x'. rewrite C, Nat.eqb_refl. split; auto. cbn. congruence.
    + exists g, y. rewrite C, (proj2 (Nat.eqb_neq g f)) by auto. auto.
  - intros g y. rewrite C. destruct (Nat.eqb_spec g f) as [->|Hg]; [intros Ey; apply some_inj in Ey; subst y; exists x; auto|intros Ey; exists y; auto].
  - auto.
Qed.
Lemma rm_in f g P : In g (remove Nat.eq_dec f P) <-> In g P /\ g <> f.
Proof. split; [intros H; apply in_remove in H; tauto|intros [H K]; apply in_in_remove; auto]. Qed.
Lemma close_core ss fs B data c P t o f : core ss fs B data c P -> In f P ->
  exists ss' fs', rf_close (mkRam ss fs t o) f = Some (mkRam ss' fs' t o) /\ core ss' fs' B data c (remove Nat.eq_dec f P) /\ same_names ss fs ss' fs' B.
Proof.
  intros [H1 H2 H3 H4 H5 H6] Hf. destruct (cell fs f) as [x|] eqn:E; [|destruct (H3 f E); contradiction]. destruct (H2 f x E) as (A1 & A2 & A3 & (n & A4) & A5).
  unfold rf_close. cbn [r_files]. rewrite E. cbn [obind]. destruct (Nat.ltb_spec 0 (rf_refs x)) as [L|L].
  - exists ss, fs. split; [reflexivity|]. split; [|apply same_refl]. split; auto.
    + intros g y Ey. destruct (H2 g y Ey) as (K1 & K2). split; [|exact K2]. rewrite rm_in. destruct (Nat.eq_dec g f) as [->|]; [left; lia|tauto].
    + intros g Eg. destruct (H3 g Eg). rewrite rm_in. tauto.
  - unfold free_cell. cbn [r_strs r_files r_tab r_open]. rewrite A4, E. cbn [obind]. exists (set_nth ss (rf_name x) None), (set_nth fs f None). split; [reflexivity|].
    assert (Lf : (f < length fs)%nat) by (eapply cell_lt; eauto). assert (Ls : (rf_name x < length ss)%nat) by (eapply cell_lt; eauto).
    assert (C : forall g y, cell (set_nth fs f None) g = Some y -> g <> f /\ cell fs g = Some y).
    { intros g y. destruct (Nat.eq_dec g f) as [->|Hg]; [rewrite cell_same by auto; discriminate|rewrite cell_other by auto; auto]. }
    assert (D : forall g y, cell fs g = Some y -> g <> f -> cell (set_nth ss (rf_name x) None) (rf_name y) = cell ss (rf_name y)).
    { intros g y Ey Hg. apply cell_other. intros Hn. apply Hg. eapply H4; eauto. }
    split; [split|split].
    + rewrite set_length. auto.
    + intros g y Ey. destruct (C g y Ey) as (Hg & Ey'). destruct (H2 g y Ey') as (K1 & K2 & K3 & K4 & K5). split; [rewrite rm_in; tauto|]. split; auto. split; auto. split; auto. rewrite (D g y Ey' Hg). auto.
    + intros g Eg. destruct (Nat.eq_dec g f) as [->|Hg]; [rewrite rm_in; split; [lia|tauto]|]. rewrite cell_other in Eg by auto. destruct (H3 g Eg). rewrite rm_in. tauto.
    + intros g h y z Ey Ez. apply C in Ey. apply C in Ez. apply H4; tauto.
    + intros p Hp. rewrite cell_other; auto. intros ->. auto.
    + intros p m. destruct (Nat.eq_dec p (rf_name x)) as [->|Hp]; [rewrite cell_same by auto; discriminate|]. rewrite cell_other by auto. intros Em. destruct (H6 p m Em) as [|(g & y & Ey & Hy)]; auto.
      right. exists g, y. split; auto. rewrite cell_other; auto. intros ->. congruence.
    + intros g y Ey. destruct (C g y Ey) as (Hg & Ey'). exists y. split; auto. split; auto. eapply D; eauto.
    + intros p Hp. rewrite cell_other; auto. intros ->. auto.
Qed.
Lemma release_core ss fs B data c t t' o f : core ss fs B data c [] -> (0 < c f)%nat ->
  exists fs1 ss' fs', deref (mkRam ss fs t o) f = Some (mkRam ss fs1 t o) /\ rf_close (mkRam ss fs1 t' o) f = Some (mkRam ss' fs' t' o) /\ core ss' fs' B data (down c f) [] /\ same_names ss fs ss fs1 B /\ same_names ss fs ss' fs' B.
Proof.
  intros C Hc. destruct (deref_core ss fs B data c [] t o f C Hc) as (fs1 & E1 & C1 & S1). destruct (close_core ss fs1 B data (down c f) [f] t' o f C1 ltac:(left; auto)) as (ss' & fs' & E2 & C2 & S2).
  exists fs1, ss', fs'. cbn in C2. destruct (Nat.eq_dec f f); [|lia]. split; auto. split; auto. split; auto. split; auto. eapply same_trans; eauto.
Qed.
(* a new file *)
Lemma new_core ss fs B data c n : core ss fs B data c [] ->
  core (ss ++ [Some n]) (fs ++ [Some (mkRf (length ss) [] 1)]) B (data ++ [[]]) (up c (length fs)) [] /\
  (forall g x, cell fs g = Some x -> cell (fs ++ [Some (mkRf (length ss) [] 1)]) g = Some x) /\ (forall p m, cell ss p = Some m -> cell (ss ++ [Some n]) p = Some m).
Proof.
  intros [H1 H2 H3 H4 H5 H6]. split; [|split; intros; apply cell_keep; auto].
  assert (Hc : c (length fs) = 0%nat). { apply H3. unfold cell. rewrite (proj2 (nth_error_None fs (length fs))); auto. }
  split.
  - rewrite !app_length. cbn. lia.
  - intros f x E. apply cell_inv in E. unfold up. destruct E as [(-> & ->)|(Hf & E)].
    + rewrite Nat.eqb_refl. cbn [rf_refs rf_data rf_name]. split; [lia|]. split; [lia|]. split; [rewrite H1, nth_middle; auto|]. split; [exists n; apply cell_new|]. intros Hp. destruct (H5 _ Hp) as (m & Em). apply cell_lt in Em. lia.
    + rewrite (proj2 (Nat.eqb_neq f (length fs))) by auto. destruct (H2 f x E) as (A1 & A2 & A3 & (m & A4) & A5). split; auto. split; auto. split; [rewrite app_nth1; auto; rewrite <- H1; eapply cell_lt; eauto|]. split; auto. exists m. apply cell_keep. auto.
  - intros f E. destruct (Nat.eq_dec f (length fs)) as [->|Hf]; [rewrite cell_new in E; discriminate|]. rewrite cell_old in E by auto. unfold up. rewrite (proj2 (Nat.eqb_neq f (length fs))) by auto. auto.
  - intros f g x y Ef Eg Hn. apply cell_inv in Ef. apply cell_inv in Eg. destruct Ef as [(-> & ->)|(Hf & Ef)], Eg as [(-> & ->)|(Hg & Eg)]; auto; cbn in Hn.
    + destruct (H2 g y Eg) as (_ & _ & _ & (m & Em) & _). apply cell_lt in Em. lia.
    + destruct (H2 f x Ef) as (_ & _ & _ & (m & Em) & _). apply cell_lt in Em. lia.
    + eapply H4; eauto.
  - intros p Hp. destruct (H5 p Hp) as (m & Em). exists m. apply cell_keep. auto.
  - intros p m E. apply cell_inv in E. destruct E as [(-> & ->)|(Hp & E)].
    + right. exists (length fs), (mkRf (length ss) [] 1). split; [apply cell_new|auto].
    + destruct (H6 p m E) as [|(f & x & Ef & Hx)]; auto. right. exists f, x. split; auto. apply cell_keep. auto.
Qed.
(* a string of the caller *)
Lemma borrow_core ss fs B data c n : core ss fs B data c [] -> core (ss ++ [Some n]) fs (length ss :: B) data c [].
Proof.
  intros [H1 H2 H3 H4 H5 H6]. split; auto.
  - intros f x E. destruct (H2 f x E) as (A1 & A2 & A3 & (m & A4) & A5). split; auto. split; auto. split; auto. split; [exists m; apply cell_keep; auto|]. cbn. intros [K|K]; auto. apply cell_lt in A4. lia.
  - intros p [<-|Hp]; [exists n; apply cell_new|]. destruct (H5 p Hp) as (m & Em). exists m. apply cell_keep. auto.
  - intros p m E. apply cell_inv in E. destruct E as [(-> & ->)|(Hp & E)]; [left; left; auto|]. destruct (H6 p m E) as [|]; auto. left. right. auto.
Qed.
(* another name *)
Lemma rename_core ss fs B data c f x n : core ss fs B data c [] -> cell fs f = Some x ->
  let ss' := set_nth ss (rf_name x) None ++ [Some n] in let fs' := set_nth fs f (Some (mkRf (length ss) (rf_data x) (rf_refs x))) in
  core ss' fs' B data c [] /\ (forall g y, g <> f -> cell fs g = Some y -> cell fs' g = Some y /\ cell ss' (rf_name y) = cell ss (rf_name y)) /\ (forall p, In p B -> cell ss' p = cell ss p) /\
  free_cell ss (rf_name x) = Some (set_nth ss (rf_name x) None) /\ cell ss' (length ss) = Some n /\ cell fs' f = Some (mkRf (length ss) (rf_data x) (rf_refs x)).
Proof.
  intros [H1 H2 H3 H4 H5 H6] E. destruct (H2 f x E) as (A1 & A2 & A3 & (m & A4) & A5). set (x' := mkRf (length ss) (rf_data x) (rf_refs x)). cbv zeta.
  assert (Lf : (f < length fs)%nat) by (eapply cell_lt; eauto). assert (Ls : (rf_name x < length ss)%nat) by (eapply cell_lt; eauto).
  assert (CF : forall g y, cell (set_nth fs f (Some x')) g = Some y -> g = f /\ y = x' \/ g <> f /\ cell fs g = Some y).
  { intros g y. destruct (Nat.eq_dec g f) as [->|Hg]; [rewrite cell_same by auto; intros K; apply some_inj in K; auto|rewrite cell_other by auto; auto]. }
  assert (CN : cell (set_nth ss (rf_name x) None ++ [Some n]) (length ss) = Some n). { rewrite <- (set_length ss (rf_name x) None). apply cell_new. }
  assert (CS : forall p, p <> rf_name x -> p <> length ss -> cell (set_nth ss (rf_name x) None ++ [Some n]) p = cell ss p). { intros p K1 K2. rewrite cell_old by (rewrite set_length; auto). apply cell_other. auto. }
  assert (CB : forall p, In p B -> cell (set_nth ss (rf_name x) None ++ [Some n]) p = cell ss p). { intros p Hp. apply CS; [intros ->; auto|]. destruct (H5 p Hp) as (k & Ek). apply cell_lt in Ek. lia. }
  assert (CY : forall g y, g <> f -> cell fs g = Some y -> cell (set_nth ss (rf_name x) None ++ [Some n]) (rf_name y) = cell ss (rf_name y)).
  { intros g y Hg Ey. destruct (H2 g y Ey) as (_ & _ & _ & (k & Ek) & _). apply CS; [intros K; apply Hg; eapply H4; eauto|]. apply cell_lt in Ek. lia. }
  split; [split|].
  - rewrite set_length. auto.
  - intros g y Ey. destruct (CF g y Ey) as [(-> & ->)|(Hg & Ey')].
    + cbn. split; auto. split; auto. split; auto. split; eauto. intros Hp. destruct (H5 _ Hp) as (k & Ek). apply cell_lt in Ek. lia.
    + destruct (H2 g y Ey') as (K1 & K2 & K3 & K4 & K5). rewrite (CY g y Hg Ey'). auto.
  - intros g Eg. destruct (Nat.eq_dec g f) as [->|Hg]; [rewrite cell_same in Eg by auto; discriminate|]. rewrite cell_other in Eg by auto. auto.
  - intros g h y z Ey Ez Hn. destruct (CF g y Ey) as [(-> & ->)|(Hg & Ey')], (CF h z Ez) as [(-> & ->)|(Hh & Ez')]; auto; cbn in Hn.
    + destruct (H2 h z Ez') as (_ & _ & _ & (k & Ek) & _). apply cell_lt in Ek. lia.
    + destruct (H2 g y Ey') as (_ & _ & _ & (k & Ek) & _). apply cell_lt in Ek. lia.
    + eapply H4; eauto.
  - intros p Hp. rewrite CB; auto.
  - intros p k Ep. destruct (Nat.eq_dec p (length ss)) as [->|Hp]; [right; exists f, x'; rewrite cell_same by auto; auto|].
    destruct (Nat.eq_dec p (rf_name x)) as [->|Hq]; [rewrite cell_old, cell_same in Ep; [discriminate|auto|rewrite set_length; auto]|]. rewrite CS in Ep by auto. destruct (H6 p k Ep) as [|(g & y & Ey & Hy)]; auto.
    right. exists g, y. split; auto. rewrite cell_other; auto. intros ->. congruence.
  - split; [intros g y Hg Ey; split; [rewrite cell_other; auto|eapply CY; eauto]|]. split; [exact CB|]. split; [unfold free_cell; rewrite A4; auto|]. split; [exact CN|apply cell_same; auto].
Qed.

(* ---------- the names *)
Local Opaque name_dec.
Definition cnt (l : list (list Z * nat)) (f : nat) : nat := length (filter (fun x => (snd x =? f)%nat) l).
Definition cnto (l : list (option (nat * nat))) (f : nat) : nat := length (filter (fun o => match o with Some s => (fst s =? f)%nat | None => false end) l).
Definition refs (l : list (list Z * nat)) (o : list (option (nat * nat))) (f : nat) : nat := (cnt l f + cnto o f)%nat.
Definition names_ok (l : list (list Z * nat)) : Prop := NoDup (map fst l) /\ NoDup (map snd l).
Lemma map_filter_nodup {A C} (g : A -> C) p l : NoDup (map g l) -> NoDup (map g (filter p l)).
Proof.
  induction l as [|a l IH]; cbn; intros N; [constructor|]. inversion_clear N. destruct (p a); auto. cbn. constructor; auto.
  intros K. apply in_map_iff in K. destruct K as (b & E & Hb). apply filter_In in Hb. apply H. rewrite <- E. apply in_map. tauto.
Qed.
Lemma filter_ok p l : names_ok l -> names_ok (filter p l).
Proof. intros [A B]. split; apply map_filter_nodup; auto. Qed.
Lemma without_ok n l : names_ok l -> names_ok (without n l).
Proof. apply filter_ok. Qed.
Lemma file_of_in n l f : file_of n l = Some f -> In (n, f) l.
Proof. induction l as [|[m g] l IH]; cbn; [discriminate|]. destruct (name_dec m n) as [->|]; [intros E; apply some_inj in E; subst; auto|auto]. Qed.
Lemma file_of_none n l : file_of n l = None <-> ~ In n (map fst l).
Proof. induction l as [|[m g] l IH]; cbn; [tauto|]. destruct (name_dec m n) as [->|]; [split; [discriminate|tauto]|]. rewrite IH. tauto. Qed.
Lemma in_file_of n f l : NoDup (map fst l) -> In (n, f) l -> file_of n l = Some f.
Proof.
  induction l as [|[m g] l IH]; cbn; [tauto|]. intros N. inversion_clear N. intros [K|K]; [inversion K; subst; destruct (name_dec n n); congruence|].
  destruct (name_dec m n) as [->|]; auto. exfalso. apply H. apply (in_map fst) in K. exact K.
Qed.
Lemma without_id n l : ~ In n (map fst l) -> without n l = l.
Proof.
  induction l as [|[m g] l IH]; [auto|]. unfold without. cbn [filter map fst In]. fold (without n l). intros K. destruct (name_dec m n) as [->|]; [tauto|]. f_equal. apply IH. tauto.
Qed.
Lemma without_in n l x : In x (without n l) <-> In x l /\ fst x <> n.
Proof. unfold without. rewrite filter_In. destruct (name_dec (fst x) n); intuition congruence. Qed.
Lemma cnt_cons x l f : cnt (x :: l) f = ((if (snd x =? f)%nat then 1 else 0) + cnt l f)%nat.
Proof. unfold cnt. cbn. destruct (snd x =? f)%nat; auto. Qed.
Lemma cnt_app a b f : cnt (a ++ b) f = (cnt a f + cnt b f)%nat.
Proof. unfold cnt. rewrite filter_app, app_length. auto. Qed.
Lemma cnto_app a b f : cnto (a ++ b) f = (cnto a f + cnto b f)%nat.
Proof. unfold cnto. rewrite filter_app, app_length. auto. Qed.
Lemma cnt_pos x l : In x l -> (0 < cnt l (snd x))%nat.
Proof. induction l as [|y l IH]; [cbn; tauto|]. rewrite cnt_cons. intros [->|K]; [rewrite Nat.eqb_refl; lia|specialize (IH K); lia]. Qed.
Lemma refs_pos x l o : In x l -> (0 < refs l o (snd x))%nat.
Proof. intros K. apply cnt_pos in K. unfold refs. lia. Qed.
Lemma cnt_without n l f : NoDup (map fst l) -> file_of n l = Some f -> forall g, cnt (without n l) g = down (cnt l) f g.
Proof.
  unfold down. induction l as [|[m k] l IH]; cbn [file_of]; [discriminate|]. intros N E g. inversion_clear N. rewrite cnt_cons. cbn [snd]. unfold without. cbn [filter fst]. fold (without n l). destruct (name_dec m n) as [->|Hm].
  - apply some_inj in E. subst k. rewrite without_id by auto. rewrite (Nat.eqb_sym g f). destruct (f =? g)%nat; lia.
  - rewrite cnt_cons. cbn [snd]. rewrite IH by auto. destruct (Nat.eqb_spec g f) as [->|]; [|auto]. assert (K : (0 < cnt l f)%nat) by exact (cnt_pos _ _ (file_of_in _ _ _ E)). destruct (k =? f)%nat; lia.
Qed.
Lemma refs_without n l o f : NoDup (map fst l) -> file_of n l = Some f -> forall g, refs (without n l) o g = down (refs l o) f g.
Proof.
  intros N E g. unfold refs. rewrite (cnt_without n l f N E). unfold down. destruct (Nat.eqb_spec g f) as [->|]; auto. assert (K : (0 < cnt l f)%nat) by exact (cnt_pos _ _ (file_of_in _ _ _ E)). lia.
Qed.
Lemma refs_name l o n f g : refs (l ++ [(n, f)]) o g = up (refs l o) f g.
Proof. unfold refs, up. rewrite cnt_app. unfold cnt at 2. cbn [filter snd]. rewrite (Nat.eqb_sym g f). destruct (f =? g)%nat; cbn [length]; lia. Qed.
Lemma refs_open l o f p g : refs l (o ++ [Some (f, p)]) g = up (refs l o) f g.
Proof. unfold refs, up. rewrite cnto_app. unfold cnto at 2. cbn [filter fst]. rewrite (Nat.eqb_sym g f). destruct (f =? g)%nat; cbn [length]; lia. Qed.
Lemma cnto_set o h f p q g : nth_error o h = Some (Some (f, p)) -> cnto (set_nth o h q) g = (down (cnto o) f g + match q with Some s => if (fst s =? g)%nat then 1 else 0 | None => 0 end)%nat /\ (0 < cnto o f)%nat.
Proof.
  unfold down, cnto. revert h. induction o as [|a o IH]; intros [|h] E; cbn in *; try discriminate.
  - apply some_inj in E. subst a. cbn [fst]. rewrite Nat.eqb_refl. rewrite (Nat.eqb_sym g f). split; [|cbn; lia]. destruct q as [[k s]|]; cbn [fst]; [destruct (k =? g)%nat|]; destruct (f =? g)%nat; cbn; lia.
  - destruct (IH h E) as (A & P). split.
    + destruct a as [[k s]|]; cbn [fst]; [|exact A]. destruct (k =? g)%nat; [|exact A]. cbn [length]. rewrite A. destruct (Nat.eqb_spec g f) as [Eg|Eg]; [rewrite Eg in *; lia|lia].
    + destruct a as [[k s]|]; auto. destruct (fst (k, s) =? f)%nat; cbn; lia.
Qed.
Lemma names_add n f l : names_ok l -> ~ In n (map fst l) -> ~ In f (map snd l) -> names_ok (l ++ [(n, f)]).
Proof.
  intros [A B] Hn Hf. split; rewrite map_app; cbn; [apply (NoDup_Add (a := n) (l := map fst l))|apply (NoDup_Add (a := f) (l := map snd l))]; auto;
    rewrite <- (app_nil_r (map _ l)) at 1; apply Add_app.
Qed.

Section HASH.
Variable H : list Z -> Z.
Definition fits (ss : strs) (fs : files) (B : list nat) (e : entry) (x : list Z * nat) : Prop :=
  e_hash e = H (fst x) /\ e_file e = snd x /\ cell ss (e_key e) = Some (fst x) /\
  exists y, cell fs (e_file e) = Some y /\ cell ss (rf_name y) = Some (fst x) /\ (e_key e = rf_name y \/ In (e_key e) B).
Lemma tab_same ss fs ss' fs' B data c t l : same_names ss fs ss' fs' B -> core ss' fs' B data c [] -> (forall x, In x l -> (0 < c (snd x))%nat) -> Forall2 (fits ss fs B) t l -> Forall2 (fits ss' fs' B) t l.
Proof.
  intros [S1 S2] C Hc F. induction F as [|e x t l (F1 & F2 & F3 & y & F4 & F5 & F6) F IH]; constructor; [|apply IH; intros; apply Hc; cbn; auto].
  destruct (cell fs' (e_file e)) as [y'|] eqn:E.
  - destruct (S1 _ _ E) as (z & Ez & Nz & Sz). rewrite Ez in F4. apply some_inj in F4. subst z. split; auto. split; auto. split.
    + destruct F6 as [K|K]; [rewrite K in *; congruence|rewrite S2; auto].
    + exists y'. split; auto. rewrite Nz. split; [congruence|]. tauto.
  - apply (co_dead _ _ _ _ _ _ C) in E. specialize (Hc x (or_introl eq_refl)). rewrite F2 in E. lia.
Qed.
Lemma tab_keep ss fs B ss' fs' B' t l : (forall p n, cell ss p = Some n -> cell ss' p = Some n) -> (forall g x, cell fs g = Some x -> cell fs' g = Some x) -> incl B B' -> Forall2 (fits ss fs B) t l -> Forall2 (fits ss' fs' B') t l.
Proof.
  intros K1 K2 K3 F. induction F as [|e x t l (F1 & F2 & F3 & y & F4 & F5 & F6) F IH]; constructor; auto. split; auto. split; auto. split; auto. exists y. split; auto. split; auto. destruct F6; auto.
Qed.
Lemma lookup_fits ss fs B t l n : Forall2 (fits ss fs B) t l ->
  match file_of n l with Some f => exists e, lookup H ss n t = Some (Some e) /\ In e t /\ e_file e = f /\ cell ss (e_key e) = Some n | None => lookup H ss n t = Some None end.
Proof.
  intros F. induction F as [|e [m f] t l (F1 & F2 & F3 & y & F4 & F5 & F6) F IH]; [reflexivity|]. cbn [file_of lookup fst snd] in *. rewrite F1, F3. cbn [obind]. destruct (name_dec m n) as [->|Hm].
  - rewrite Z.eqb_refl, beqb_refl. exists e. cbn; auto.
  - assert (Hb : beqb m n = false). { destruct (beqb m n) eqn:E; auto. apply beqb_eq in E. congruence. }
    rewrite Hb. assert (R : (if H m =? H n then lookup H ss n t else lookup H ss n t) = lookup H ss n t) by (destruct (H m =? H n); auto). rewrite R. destruct (file_of n l) as [g|]; auto. destruct IH as (e' & E1 & E2 & E3). exists e'. cbn; auto.
Qed.
Lemma key_name ss fs B t l e : Forall2 (fits ss fs B) t l -> In e t -> exists x, In x l /\ cell ss (e_key e) = Some (fst x) /\ fits ss fs B e x.
Proof. intros F. induction F as [|e' x t l F0 F IH]; cbn; [tauto|]. intros [->|K]; [exists x; split; auto; split; auto; apply F0|]. destruct (IH K) as (z & Z1 & Z2). exists z. auto. Qed.
Lemma key_unique ss fs B t l e e' n : Forall2 (fits ss fs B) t l -> NoDup (map fst l) -> In e t -> In e' t -> cell ss (e_key e) = Some n -> cell ss (e_key e') = Some n -> e = e'.
Proof.
  intros F. induction F as [|a x t l F0 F IH]; cbn; [tauto|]. intros N. inversion_clear N as [|? ? N1 N2]. intros [->|K] [->|K'] E E'; auto.
  - destruct (key_name _ _ _ _ _ _ F K') as (z & Z1 & Z2 & _). destruct F0 as (_ & _ & F3 & _). exfalso. apply N1. replace (fst x) with (fst z) by congruence. apply in_map. auto.
  - destruct (key_name _ _ _ _ _ _ F K) as (z & Z1 & Z2 & _). destruct F0 as (_ & _ & F3 & _). exfalso. apply N1. replace (fst x) with (fst z) by congruence. apply in_map. auto.
Qed.
Lemma drop_fits ss fs B t l e n : Forall2 (fits ss fs B) t l -> NoDup (map fst l) -> In e t -> cell ss (e_key e) = Some n -> Forall2 (fits ss fs B) (drop_entry e t) (without n l).
Proof.
  intros F N He En. assert (K : forall e', In e' t -> cell ss (e_key e') = Some n -> e_key e' = e_key e). { intros e' H1 H2. f_equal. symmetry. eapply key_unique; eauto. }
  clear He N. induction F as [|a x t l F0 F IH]; [constructor|]. unfold drop_entry, without. cbn [filter]. fold (drop_entry e t) (without n l).
  assert (IH' : Forall2 (fits ss fs B) (drop_entry e t) (without n l)) by (apply IH; intros; apply K; cbn; auto). pose proof F0 as (_ & _ & F3 & _).
  destruct (Nat.eqb_spec (e_key a) (e_key e)) as [Ek|Ek]; cbn [negb]; destruct (name_dec (fst x) n) as [En'|En']; auto.
  - exfalso. apply En'. rewrite Ek in F3. congruence.
  - exfalso. apply Ek. apply K; [cbn; auto|]. congruence.
Qed.
Lemma drop_id e t : (forall a, In a t -> e_key a <> e_key e) -> drop_entry e t = t.
Proof. induction t as [|a t IH]; cbn; auto. intros K. unfold drop_entry. cbn. rewrite (proj2 (Nat.eqb_neq _ _)) by (apply K; auto). cbn. f_equal. apply IH. auto. Qed.
End HASH.

Section OPS.
Variable H : list Z -> Z.
Record inv (r : ram) (d : dir) (B : list nat) (T : list (list Z)) : Prop := mkInv {
  i_core : core (r_strs r) (r_files r) B (d_data d) (refs (d_names d) (d_open d)) [];
  i_tab : Forall2 (fits H (r_strs r) (r_files r) B) (r_tab r) (d_names d);
  i_ok : names_ok (d_names d);
  i_open : r_open r = d_open d;
  i_bor : forall p, In p B -> exists n, cell (r_strs r) p = Some n /\ In n T }.
Lemma inv_look r d B T n : inv r d B T ->
  match file_of n (d_names d) with
  | Some f => exists e y, lookup H (r_strs r) n (r_tab r) = Some (Some e) /\ In e (r_tab r) /\ e_file e = f /\ cell (r_strs r) (e_key e) = Some n /\ cell (r_files r) f = Some y /\ rf_data y = nth f (d_data d) []
  | None => lookup H (r_strs r) n (r_tab r) = Some None
  end.
Proof.
  intros I. pose proof (lookup_fits H _ _ _ _ _ n (i_tab _ _ _ _ I)) as L. destruct (file_of n (d_names d)) as [f|]; auto. destruct L as (e & L1 & L2 & L3 & L4).
  destruct (key_name H _ _ _ _ _ e (i_tab _ _ _ _ I) L2) as (x & X1 & X2 & _ & _ & _ & y & Y1 & _). rewrite L3 in Y1. exists e, y. split; auto. split; auto. split; auto. split; auto. split; auto. apply (co_live _ _ _ _ _ _ (i_core _ _ _ _ I) f y Y1).
Qed.
Lemma bor_same ss fs ss' fs' B T : same_names ss fs ss' fs' B -> (forall p, In p B -> exists n, cell ss p = Some n /\ In n T) -> forall p, In p B -> exists n : list Z, cell ss' p = Some n /\ In n T.
Proof. intros [_ S] K p Hp. rewrite S; auto. Qed.
Lemma files_fresh ss fs B data c f t l : core ss fs B data c [] -> Forall2 (fits H ss fs B) t l -> (length fs <= f)%nat -> ~ In f (map snd l).
Proof.
  intros C F L K. apply in_map_iff in K. destruct K as (x & E & Hx). revert Hx. induction F as [|e z t l (F1 & F2 & F3 & y & F4 & F5) F IH]; cbn; [tauto|]. intros [->|Hx]; auto. apply cell_lt in F4. lia.
Qed.

Lemma touch_ok r d B T n : inv r d B T -> exists r' B', ram_touch H r n = Some (Done, r') /\ inv r' (match file_of n (d_names d) with Some _ => d | None => mkDir (d_names d ++ [(n, length (d_data d))]) (d_data d ++ [[]]) (d_open d) end) B' (n :: T).
Proof.
  intros I. destruct r as [ss fs t o], I as [C F N O BB]. cbn [r_strs r_files r_tab r_open] in *. subst o.
  pose proof (borrow_core _ _ _ _ _ n C) as C1. assert (F1 : Forall2 (fits H (ss ++ [Some n]) fs (length ss :: B)) t (d_names d)). { eapply tab_keep; [| | |exact F]; auto using cell_keep. intros p; cbn; auto. }
  assert (B1 : forall p, In p (length ss :: B) -> exists m, cell (ss ++ [Some n]) p = Some m /\ In m (n :: T)). { intros p [<-|Hp]; [exists n; rewrite cell_new; cbn; auto|]. destruct (BB p Hp) as (m & E & K). exists m. split; [apply cell_keep; auto|cbn; auto]. }
  unfold ram_touch. cbn [r_strs r_files r_tab r_open]. pose proof (lookup_fits H _ _ _ _ _ n F1) as L. destruct (file_of n (d_names d)) as [f|] eqn:Ef.
  - destruct L as (e & L1 & _). rewrite L1. cbn [obind]. eexists _, (length ss :: B). split; [reflexivity|]. split; auto.
  - rewrite L. cbn [obind]. unfold rf_new. cbn [r_strs r_files r_tab r_open]. destruct (new_core _ _ _ _ _ n C1) as (C2 & K1 & K2). set (ss2 := (ss ++ [Some n]) ++ [Some n]) in *. set (fs2 := fs ++ [Some (mkRf (length (ss ++ [Some n])) [] 1)]) in *.
    assert (F2 : Forall2 (fits H ss2 fs2 (length ss :: B)) t (d_names d)). { eapply tab_keep; [| | |exact F1]; auto. apply incl_refl. }
    unfold h_set. cbn [r_strs r_files r_tab r_open]. pose proof (lookup_fits H _ _ _ _ _ n F2) as L2. rewrite Ef in L2. rewrite L2. cbn [obind]. unfold with_tab. cbn [r_strs r_files r_tab r_open]. eexists _, (length ss :: B). split; [reflexivity|].
    assert (Len : length fs = length (d_data d)) by apply C. split; cbn [r_strs r_files r_tab r_open d_names d_data d_open]; auto.
    + eapply core_ext; [exact C2|]. intros g. rewrite refs_name, Len. auto.
    + apply Forall2_app; auto. constructor; [|constructor]. split; auto. split; auto. cbn [e_key e_file fst snd]. split; [apply K2; apply cell_new|]. exists (mkRf (length (ss ++ [Some n])) [] 1). split; [apply cell_new|]. split; [apply cell_new|]. right. left. auto.
    + rewrite <- Len. apply names_add; auto; [apply file_of_none; auto|]. eapply files_fresh; [exact C|exact F|lia].
    + intros p Hp. destruct (B1 p Hp) as (m & E & K). exists m. split; auto.
Qed.
Lemma remove_ok r d B T n : inv r d B T -> exists r', ram_remove H r n = Some (match file_of n (d_names d) with Some _ => Yes | None => No end, r') /\ inv r' (named d (without n (d_names d))) B T.
Proof.
  intros I. pose proof (inv_look r d B T n I) as L. unfold ram_remove. pose proof I as [C F N O BB]. destruct r as [ss fs t o]. cbn [r_strs r_files r_tab r_open] in *. subst o. destruct (file_of n (d_names d)) as [f|] eqn:Ef.
  - destruct L as (e & y & L1 & L2 & L3 & L4 & L5 & L6). rewrite L1. cbn [obind]. unfold with_tab. cbn [r_strs r_files r_tab r_open]. rewrite L3.
    destruct (release_core _ _ _ _ _ (drop_entry e t) (drop_entry e t) (d_open d) f C) as (fs1 & ss' & fs' & E1 & E2 & C' & _ & S'). { apply (refs_pos (n, f)). apply file_of_in. auto. }
    rewrite E1. cbn [obind]. rewrite E2. cbn [obind]. eexists. split; [reflexivity|]. 
    assert (R : forall g, refs (without n (d_names d)) (d_open d) g = down (refs (d_names d) (d_open d)) f g) by (apply refs_without; [apply N|auto]).
    pose proof (core_ext _ _ _ _ _ _ _ C' R) as C2. split; cbn [r_strs r_files r_tab r_open named d_names d_data d_open]; auto.
    + eapply tab_same; [exact S'|exact C2| |]. { intros x Hx. apply refs_pos. auto. } eapply drop_fits; eauto. apply N.
    + apply without_ok. auto.
    + eapply bor_same; eauto.
  - rewrite L. cbn [obind]. eexists. split; [reflexivity|]. rewrite without_id by (apply file_of_none; auto). destruct d. exact I.
Qed.
Lemma rename_ok r d B T a b : inv r d B T -> exists r', ram_rename H r a b = Some (match file_of a (d_names d) with Some _ => Done | None => IoError end, r') /\
  inv r' (match file_of a (d_names d) with Some f => named d (without b (without a (d_names d)) ++ [(b, f)]) | None => d end) B T.
Proof.
  intros I. pose proof (inv_look r d B T a I) as L. unfold ram_rename. pose proof I as [C F N O BB]. destruct r as [ss fs t o]. cbn [r_strs r_files r_tab r_open] in *. subst o. destruct (file_of a (d_names d)) as [f|] eqn:Ef.
  2:{ rewrite L. cbn [obind]. eexists. split; [reflexivity|exact I]. }
  destruct L as (e & x & L1 & L2 & L3 & L4 & L5 & L6). rewrite L1. cbn [obind]. unfold with_tab. cbn [r_strs r_files r_tab r_open]. rewrite L3, L5. cbn [obind].
  pose proof (rename_core ss fs B (d_data d) _ f x b C L5) as RC. cbv zeta in RC. destruct RC as (C1 & KF & KB & Fr & Kn & Kf). rewrite Fr. cbn [obind]. rewrite set_length. unfold set_file. cbn [r_strs r_files r_tab r_open].
  set (ss1 := set_nth ss (rf_name x) None ++ [Some b]) in *. set (fs1 := set_nth fs f (Some (mkRf (length ss) (rf_data x) (rf_refs x)))) in *. set (l1 := without a (d_names d)).
  assert (N1 : names_ok l1) by (apply without_ok; auto).
  assert (NF : ~ In f (map snd l1)).
  { intros K. apply in_map_iff in K. destruct K as ([m g] & Eg & Hx). cbn in Eg. subst g. apply without_in in Hx. destruct Hx as (Hx & Hm). apply Hm. cbn. pose proof (file_of_in _ _ _ Ef) as Ha. destruct N as [_ N]. clear - N Hx Ha.
    induction (d_names d) as [|[k g] l IH]; cbn in *; [tauto|]. inversion_clear N. destruct Hx as [Hx|Hx], Ha as [Ha|Ha]; auto; try congruence; exfalso; [inversion Hx; subst|inversion Ha; subst]; apply H; [apply (in_map snd) in Ha|apply (in_map snd) in Hx]; auto. }
  assert (F0 : Forall2 (fits H ss fs B) (drop_entry e t) l1) by (eapply drop_fits; eauto; apply N).
  assert (F1 : Forall2 (fits H ss1 fs1 B) (drop_entry e t) l1).
  { clear - F0 NF KF KB. induction F0 as [|e1 z t1 l1 (F1 & F2 & F3 & y & F4 & F5 & F6) F IH]; constructor; [|apply IH; cbn in NF; tauto]. assert (Hz : e_file e1 <> f) by (rewrite F2; cbn in NF; tauto).
    destruct (KF _ _ Hz F4) as (K1 & K2). split; auto. split; auto. split; [destruct F6 as [K|K]; [rewrite K in *; congruence|rewrite KB; auto]|]. exists y. split; auto. split; [congruence|auto]. }
  assert (BB1 : forall p, In p B -> exists n, cell ss1 p = Some n /\ In n T). { intros p Hp. rewrite KB; auto. }
  assert (FN : forall ss' fs' t2 l2, Forall2 (fits H ss' fs' B) t2 l2 -> same_names ss1 fs1 ss' fs' B -> cell fs' f <> None -> Forall2 (fits H ss' fs' B) (t2 ++ [mkE (H b) (length ss) f]) (l2 ++ [(b, f)])).
  { intros ss' fs' t2 l2 F2 [S1 S2] Hf. apply Forall2_app; auto. constructor; [|constructor]. destruct (cell fs' f) as [y'|] eqn:Ey; [|congruence]. destruct (S1 _ _ Ey) as (y & Y1 & Y2 & Y3). rewrite Kf in Y1. apply some_inj in Y1. subst y. cbn in Y2, Y3. rewrite Kn in Y3.
    split; auto. split; auto. split; [exact Y3|]. exists y'. cbn [e_file e_key fst]. split; auto. rewrite Y2. auto. }
  assert (R1 : forall g, refs l1 (d_open d) g = down (refs (d_names d) (d_open d)) f g) by (apply refs_without; [apply N|auto]).
  assert (Hc : (0 < refs (d_names d) (d_open d) f)%nat) by (apply (refs_pos (a, f)); apply file_of_in; auto).
  pose proof (lookup_fits H _ _ _ _ _ b F1) as L'. destruct (file_of b l1) as [g|] eqn:Eg.
  - destruct L' as (e2 & M1 & M2 & M3 & M4). rewrite M1. cbn [obind]. rewrite M3. pose proof (file_of_in _ _ _ Eg) as Hg. assert (Hgf : g <> f). { intros ->. apply NF. apply (in_map snd) in Hg. auto. }
    destruct (release_core _ _ _ _ _ (drop_entry e t) (drop_entry e t) (d_open d) g C1) as (fs2 & ss' & fs' & E1 & E2 & C' & _ & S').
    { apply (refs_pos (b, g)). unfold l1 in Hg. apply without_in in Hg. tauto. }
    rewrite E1. cbn [obind]. unfold h_set. cbn [r_strs r_files r_tab r_open]. rewrite M1. cbn [obind]. rewrite M3, (proj2 (Nat.eqb_neq g f)) by auto. rewrite E2. cbn [obind]. unfold with_tab. cbn [r_strs r_files r_tab r_open]. eexists. split; [reflexivity|].
    assert (R2 : forall k, refs (without b l1 ++ [(b, f)]) (d_open d) k = down (refs (d_names d) (d_open d)) g k).
    { intros k. rewrite refs_name. unfold up. rewrite (refs_without b l1 _ g) by (auto; apply N1). unfold down. rewrite R1. unfold down. destruct (Nat.eqb_spec k f) as [->|]; auto. rewrite (proj2 (Nat.eqb_neq f g)) by auto. lia. }
    pose proof (core_ext _ _ _ _ _ _ _ C' R2) as C2. split; cbn [r_strs r_files r_tab r_open named d_names d_data d_open]; auto.
    + apply FN; auto.
      * eapply tab_same; [exact S'|exact C2| |]. { intros z Hz. apply refs_pos. apply in_or_app. auto. } eapply drop_fits; eauto. apply N1.
      * intros K. apply (co_dead _ _ _ _ _ _ C') in K. unfold down in K. rewrite (proj2 (Nat.eqb_neq f g)) in K by auto. lia.
    + apply names_add; [apply without_ok; auto| |].
      * intros K. apply in_map_iff in K. destruct K as (z & Ez & Hz). apply without_in in Hz. tauto.
      * intros K. apply NF. apply in_map_iff in K. destruct K as (z & Ez & Hz). apply without_in in Hz. rewrite <- Ez. apply in_map. tauto.
    + eapply bor_same; eauto.
  - rewrite L'. cbn [obind]. unfold h_set. cbn [r_strs r_files r_tab r_open]. rewrite L'. cbn [obind]. unfold with_tab. cbn [r_strs r_files r_tab r_open]. eexists. split; [reflexivity|].
    fold l1. rewrite (without_id b l1) by (apply file_of_none; auto).
    split; cbn [r_strs r_files r_tab r_open named d_names d_data d_open]; auto.
    + eapply core_ext; [exact C1|]. intros k. rewrite refs_name. unfold up. rewrite R1. unfold down. destruct (Nat.eqb_spec k f) as [->|]; auto. lia.
    + apply FN; auto; [apply same_refl|]. rewrite Kf. discriminate.
    + apply names_add; auto. apply file_of_none. auto.
Qed.
End OPS.

Section MORE.
Variable H : list Z -> Z.
Lemma clear_ok which es : forall en k kn r data open B T, Forall2 (fits H (r_strs r) (r_files r) B) es en -> Forall2 (fits H (r_strs r) (r_files r) B) k kn -> r_tab r = k ++ es -> inv H r (mkDir (kn ++ en) data open) B T ->
  exists r', clear_loop H which r es = Some r' /\ inv H r' (mkDir (kn ++ filter (fun x => negb (which (fst x))) en) data open) B T.
Proof.
  induction es as [|e es IH]; intros en k kn r data open B T F1 F2 Ht I.
  - inversion F1. subst en. exists r. split; auto.
  - inversion F1 as [|e0 [n f] es0 en' F0 F1' X1 X2]. subst e0 es0 en. cbn [clear_loop filter fst]. pose proof F0 as (G1 & G2 & G3 & y & G4 & G5 & G6). cbn [fst snd] in *. rewrite G4. cbn [obind]. rewrite G5. cbn [obind]. destruct (which n); cbn [negb].
    + pose proof I as [C F N O BB]. destruct r as [ss fs t o]. cbn [r_strs r_files r_tab r_open d_names d_data d_open] in *. subst o t. rewrite G2 in *. set (l := kn ++ (n, f) :: en') in *.
      assert (Hl : In (n, f) l) by (apply in_or_app; right; left; auto). assert (Ef : file_of n l = Some f) by (apply in_file_of; [apply N|auto]).
      destruct (release_core _ _ _ _ _ (k ++ e :: es) (k ++ e :: es) open f C (refs_pos (n, f) l open Hl)) as (fs1 & ss' & fs' & E1 & E2 & C' & _ & S'). rewrite E1. cbn [obind r_strs r_tab].
      pose proof (lookup_fits H _ _ _ _ _ n F) as L. rewrite Ef in L. destruct L as (e' & L1 & L2 & L3 & L4). rewrite L1. cbn [obind].
      assert (e' = e). { eapply key_unique; [exact F|apply N|exact L2| |exact L4|exact G3]. apply in_or_app. right. left. auto. } subst e'. rewrite G2. rewrite E2. cbn [obind]. unfold with_tab. cbn [r_strs r_files r_tab r_open].
      assert (Hk : forall a, In a (k ++ es) -> e_key a <> e_key e).
      { intros a Ha K. assert (NE : exists z, In z (kn ++ en') /\ cell ss (e_key a) = Some (fst z)).
        { assert (FF : Forall2 (fits H ss fs B) (k ++ es) (kn ++ en')) by (apply Forall2_app; auto). destruct (key_name H _ _ _ _ _ a FF Ha) as (z & Z1 & Z2 & _). eauto. }
        destruct NE as (z & Z1 & Z2). rewrite K, G3 in Z2. apply some_inj in Z2. destruct N as [N _]. unfold l in N. rewrite map_app in N. cbn in N. apply NoDup_remove_2 in N. apply N. rewrite <- map_app, Z2. apply in_map. auto. }
      assert (D : drop_entry e (k ++ e :: es) = k ++ es).
      { unfold drop_entry. rewrite filter_app. cbn [filter]. rewrite Nat.eqb_refl. cbn [negb]. rewrite <- filter_app. apply drop_id. auto. }
      rewrite D. assert (W : without n l = kn ++ en').
      { destruct N as [N _]. unfold l in N. rewrite map_app in N. cbn in N. apply NoDup_remove_2 in N. rewrite <- map_app in N. unfold l, without. rewrite filter_app. cbn [filter fst]. destruct (name_dec n n); [|congruence]. rewrite <- filter_app. apply without_id. auto. }
      assert (R : forall g, refs (kn ++ en') open g = down (refs l open) f g). { rewrite <- W. apply refs_without; [apply N|auto]. }
      pose proof (core_ext _ _ _ _ _ _ _ C' R) as C2.
      assert (T2 : forall t l0, incl l0 (kn ++ en') -> Forall2 (fits H ss fs B) t l0 -> Forall2 (fits H ss' fs' B) t l0). { intros t l0 Hi. eapply tab_same; [exact S'|exact C2|]. intros z Hz. apply refs_pos. auto. }
      apply (IH en' k kn).
      * apply T2; auto. intros z Hz. apply in_or_app. auto.
      * apply T2; auto. intros z Hz. apply in_or_app. auto.
      * auto.
      * split; cbn [r_strs r_files r_tab r_open d_names d_data d_open]; auto; [| |eapply bor_same; eauto].
        -- apply T2; [apply incl_refl|]. apply Forall2_app; auto.
        -- rewrite <- W. apply without_ok. auto.
    + destruct (IH en' (k ++ [e]) (kn ++ [(n, f)]) r data open B T F1') as (r' & E & I').
      * apply Forall2_app; auto.
      * rewrite Ht, <- app_assoc. auto.
      * rewrite <- app_assoc. exact I.
      * exists r'. split; auto. rewrite <- app_assoc in I'. exact I'.
Qed.
Lemma lock_ends n : file_is_lock n = ends_lck n.
Proof.
  unfold file_is_lock, ends_lck. f_equal. destruct (name_dec (skipn (length n - 4) n) (str ".lck")) as [->|K]; [reflexivity|]. destruct (beqb _ _) eqn:E; auto. apply beqb_eq in E. congruence.
Qed.
Lemma clear_if_ok which p r d B T : inv H r d B T -> (forall n, negb (which n) = p n) -> exists r', ram_clear_if H which r = Some (Done, r') /\ inv H r' (named d (only p (d_names d))) B T.
Proof.
  intros I E. unfold ram_clear_if. destruct d as [l data open]. destruct (clear_ok which (r_tab r) l [] [] r data open B T (i_tab _ _ _ _ _ I) ltac:(constructor) eq_refl I) as (r' & E' & I'). rewrite E'. cbn [obind]. exists r'. split; auto. cbn [app] in I'.
  unfold named, only. cbn [d_names d_data d_open]. erewrite filter_ext; [exact I'|]. intros x. symmetry. apply E.
Qed.
Lemma stream_ok r d B T f x : inv H r d B T -> cell (r_files r) f = Some x -> exists r', ref r f = Some r' /\ fst (new_stream r' f) = fst (stream_on f d) /\ inv H (snd (new_stream r' f)) (snd (stream_on f d)) B T.
Proof.
  intros [C F N O BB] E. destruct r as [ss fs t o]. cbn [r_strs r_files r_tab r_open] in *. subst o. destruct (ref_core _ _ _ _ _ _ t (d_open d) f x C E) as (fs' & E1 & C1 & S1 & _). rewrite E1. eexists. split; [reflexivity|]. split; [reflexivity|].
  unfold new_stream, stream_on, with_open. cbn [fst snd r_strs r_files r_tab r_open].
  assert (C2 : core ss fs' B (d_data d) (refs (d_names d) (d_open d ++ [Some (f, 0%nat)])) []). { eapply core_ext; [exact C1|]. intros g. apply refs_open. }
  split; cbn [r_strs r_files r_tab r_open d_names d_data d_open]; auto. eapply tab_same; [exact S1|exact C2| |exact F]. intros z Hz. apply refs_pos. auto.
Qed.
Lemma open_ok r d B T n : inv H r d B T -> exists r', ram_open_input H r n = Some (match file_of n (d_names d) with Some f => fst (stream_on f d) | None => NotFound end, r') /\ inv H r' (match file_of n (d_names d) with Some f => snd (stream_on f d) | None => d end) B T.
Proof.
  intros I. pose proof (inv_look H r d B T n I) as L. unfold ram_open_input. destruct (file_of n (d_names d)) as [f|] eqn:Ef.
  - destruct L as (e & y & L1 & L2 & L3 & L4 & L5 & L6). rewrite L1. cbn [obind]. rewrite L3. destruct (stream_ok r d B T f y I L5) as (r' & E & S1 & S2). rewrite E. cbn [obind]. rewrite <- S1. exists (snd (new_stream r' f)). split; auto.
  - rewrite L. cbn [obind]. eauto.
Qed.
Definition created (n : list Z) (d : dir) : res * dir :=
  match file_of n (d_names d) with Some f => stream_on f d | None => stream_on (length (d_data d)) (mkDir (d_names d ++ [(n, length (d_data d))]) (d_data d ++ [[]]) (d_open d)) end.
Lemma create_ok r d B T n : inv H r d B T -> exists r', ram_new_output H r n = Some (fst (created n d), r') /\ inv H r' (snd (created n d)) B T.
Proof.
  intros I. pose proof (inv_look H r d B T n I) as L. unfold ram_new_output, created. destruct (file_of n (d_names d)) as [f|] eqn:Ef.
  - destruct L as (e & y & L1 & L2 & L3 & L4 & L5 & L6). rewrite L1. cbn [obind fst snd]. rewrite L3. destruct (stream_ok r d B T f y I L5) as (r' & E & S1 & S2). rewrite E. cbn [obind]. rewrite <- S1. exists (snd (new_stream r' f)). split; auto.
  - rewrite L. cbn [obind]. destruct I as [C F N O BB], r as [ss fs t o]. cbn [r_strs r_files r_tab r_open] in *. subst o. unfold rf_new. cbn [r_strs r_files r_tab r_open].
    destruct (new_core _ _ _ _ _ n C) as (C2 & K1 & K2). set (ss2 := ss ++ [Some n]) in *. set (fs2 := fs ++ [Some (mkRf (length ss) [] 1)]) in *.
    assert (Ey : cell fs2 (length fs) = Some (mkRf (length ss) [] 1)) by apply cell_new. rewrite Ey. cbn [obind rf_name].
    assert (F2 : Forall2 (fits H ss2 fs2 B) t (d_names d)). { eapply tab_keep; [| | |exact F]; auto. apply incl_refl. }
    unfold h_set. cbn [r_strs r_files r_tab r_open]. pose proof (lookup_fits H _ _ _ _ _ n F2) as L2. rewrite Ef in L2. rewrite L2. cbn [obind]. unfold with_tab. cbn [r_strs r_files r_tab r_open fst snd].
    assert (Len : length fs = length (d_data d)) by apply C. rewrite <- Len.
    match goal with |- context[ref ?x _] => set (r1 := x) end. set (d1 := mkDir (d_names d ++ [(n, length fs)]) (d_data d ++ [[]]) (d_open d)).
    assert (I1 : inv H r1 d1 B T).
    { unfold r1, d1. split; cbn [r_strs r_files r_tab r_open d_names d_data d_open]; auto.
      - eapply core_ext; [exact C2|]. intros g. rewrite refs_name. auto.
      - apply Forall2_app; auto. constructor; [|constructor]. split; auto. split; auto. cbn [e_key e_file fst snd]. split; [apply cell_new|]. exists (mkRf (length ss) [] 1). split; auto. split; [apply cell_new|auto].
      - apply names_add; auto; [apply file_of_none; auto|]. eapply files_fresh; [exact C|exact F|lia].
      - intros p Hp. destruct (BB p Hp) as (m & E & K). exists m. auto. }
    destruct (stream_ok r1 d1 B T (length fs) _ I1 Ey) as (r' & E & S1 & S2). rewrite E. cbn [obind]. rewrite <- S1. exists (snd (new_stream r' (length fs))). split; auto.
Qed.
Lemma open_cell r d B T h f p : inv H r d B T -> nth_error (d_open d) h = Some (Some (f, p)) -> cell (r_open r) h = Some (f, p) /\ (0 < refs (d_names d) (d_open d) f)%nat /\ exists y, cell (r_files r) f = Some y /\ rf_data y = nth f (d_data d) [].
Proof.
  intros [C F N O BB] E. split; [unfold cell; rewrite O, E; auto|]. assert (K : (0 < refs (d_names d) (d_open d) f)%nat). { unfold refs. pose proof (proj2 (cnto_set _ _ _ _ None 0%nat E)). lia. }
  split; auto. destruct (cell (r_files r) f) as [y|] eqn:Ey; [exists y; split; auto; apply (co_live _ _ _ _ _ _ C f y Ey)|]. apply (co_dead _ _ _ _ _ _ C) in Ey. lia.
Qed.
Lemma write_ok r d B T h b f p : inv H r d B T -> nth_error (d_open d) h = Some (Some (f, p)) -> exists r', stream_write r h b = Some (Done, r') /\
  inv H r' (mkDir (d_names d) (set_nth (d_data d) f (firstn p (nth f (d_data d) []) ++ b ++ skipn (p + length b) (nth f (d_data d) []))) (set_nth (d_open d) h (Some (f, p + length b)%nat))) B T.
Proof.
  intros I E. destruct (open_cell r d B T h f p I E) as (E1 & K & y & Ey & Ed). unfold stream_write. rewrite E1. cbn [obind fst snd]. rewrite Ey. cbn [obind]. eexists. split; [reflexivity|].
  destruct I as [[H1 H2 H3 H4 H5 H6] F N O BB], r as [ss fs t o]. unfold with_open, set_file. cbn [r_strs r_files r_tab r_open rf_name rf_data rf_refs] in *. subst o. unfold splice. rewrite Ed. set (v := firstn p _ ++ _). set (y' := mkRf (rf_name y) v (rf_refs y)).
  assert (Lf : (f < length fs)%nat) by (eapply cell_lt; eauto).
  assert (CF : forall g, cell (set_nth fs f (Some y')) g = if (g =? f)%nat then Some y' else cell fs g). { intros g. destruct (Nat.eqb_spec g f) as [->|Hg]; [apply cell_same; auto|apply cell_other; auto]. }
  assert (RF : forall g, refs (d_names d) (set_nth (d_open d) h (Some (f, (p + length b)%nat))) g = refs (d_names d) (d_open d) g).
  { intros g. unfold refs. destruct (cnto_set _ _ _ _ (Some (f, (p + length b)%nat)) g E) as (A & P). rewrite A. cbn [fst]. unfold down. rewrite (Nat.eqb_sym g f). destruct (Nat.eqb_spec f g) as [<-|]; lia. }
  assert (S1 : same_names ss fs ss (set_nth fs f (Some y')) B). { split; auto. intros g x. rewrite CF. destruct (Nat.eqb_spec g f) as [->|]; [intros Ex; apply some_inj in Ex; subst x; exists y; auto|intros Ex; exists x; auto]. }
  assert (C2 : core ss (set_nth fs f (Some y')) B (set_nth (d_data d) f v) (refs (d_names d) (set_nth (d_open d) h (Some (f, (p + length b)%nat)))) []).
  { eapply core_ext; [|exact RF]. split; auto.
    - rewrite !set_length. auto.
    - intros g x. rewrite CF, nth_set by (rewrite <- H1; auto). destruct (Nat.eqb_spec g f) as [->|Hg].
      + intros Ex. apply some_inj in Ex. subst x. destruct (H2 f y Ey) as (A1 & A2 & A3 & A4). cbn. destruct (Nat.eq_dec f f); [|lia]. auto.
      + intros Ex. destruct (Nat.eq_dec g f); [lia|]. auto.
    - intros g. rewrite CF. destruct (g =? f)%nat; [discriminate|auto].
    - intros g k x z Ex Ez Hn. destruct S1 as [S1 _]. destruct (S1 _ _ Ex) as (x0 & X1 & X2 & _). destruct (S1 _ _ Ez) as (z0 & Z1 & Z2 & _). eapply H4; eauto. congruence.
    - intros q n Hq. destruct (H6 q n Hq) as [|(g & x & Ex & Hx)]; auto. right. destruct (Nat.eq_dec g f) as [->|Hg]; [exists f, y'; rewrite CF, Nat.eqb_refl; split; auto; cbn; congruence|]. exists g, x. rewrite CF, (proj2 (Nat.eqb_neq _ _)) by auto. auto. }
  split; cbn [r_strs r_files r_tab r_open d_names d_data d_open]; auto. eapply tab_same; [exact S1|exact C2| |exact F]. intros z Hz. apply refs_pos. auto.
Qed.
Lemma close_ok r d B T h s : inv H r d B T -> nth_error (d_open d) h = Some (Some s) -> exists r', stream_close r h = Some (Done, r') /\ inv H r' (mkDir (d_names d) (d_data d) (set_nth (d_open d) h None)) B T.
Proof.
  intros I E. destruct s as [f p]. destruct (open_cell r d B T h f p I E) as (E1 & K & y & Ey & Ed). unfold stream_close. rewrite E1. cbn [obind fst snd]. destruct I as [C F N O BB], r as [ss fs t o]. cbn [r_strs r_files r_tab r_open] in *. subst o.
  destruct (release_core _ _ _ _ _ t t (d_open d) f C K) as (fs1 & ss' & fs' & X1 & X2 & C' & _ & S'). rewrite X1. cbn [obind]. rewrite X2. cbn [obind]. eexists. split; [reflexivity|]. unfold with_open. cbn [r_strs r_files r_tab r_open].
  assert (C2 : core ss' fs' B (d_data d) (refs (d_names d) (set_nth (d_open d) h None)) []).
  { eapply core_ext; [exact C'|]. intros g. unfold refs. destruct (cnto_set _ _ _ _ None g E) as (A & P). rewrite A. unfold down. destruct (Nat.eqb_spec g f) as [->|]; lia. }
  split; cbn [r_strs r_files r_tab r_open d_names d_data d_open]; auto; [|eapply bor_same; eauto]. eapply tab_same; [exact S'|exact C2| |exact F]. intros z Hz. apply refs_pos. auto.
Qed.
Lemma f2_len {A C} (R : A -> C -> Prop) l l' : Forall2 R l l' -> length l = length l'.
Proof. intros F. induction F; cbn; auto. Qed.
Definition touched (o : op) : list (list Z) := match o with Touch n => [n] | _ => [] end.
Lemma step_ok r d B T o x d' : inv H r d B T -> does d o = Some (x, d') -> exists r' B', step H r o = Some (x, r') /\ inv H r' d' B' (touched o ++ T).
Proof.
  intros I E. destruct o as [n|n|n|a b| | | | |n|n|n|h b|h|h]; cbn [does step touched app] in *.
  - apply some_inj in E. destruct (touch_ok H r d B T n I) as (r' & B' & E' & I'). exists r', B'. injection E as <- <-. auto.
  - apply some_inj in E. injection E as <- <-. pose proof (inv_look H r d B T n I) as L. unfold ram_exists. exists r, B. split; auto. destruct (file_of n (d_names d)); [destruct L as (e & y & L1 & _); rewrite L1|rewrite L]; reflexivity.
  - apply some_inj in E. injection E as <- <-. destruct (remove_ok H r d B T n I) as (r' & E' & I'). eauto.
  - apply some_inj in E. destruct (rename_ok H r d B T a b I) as (r' & E' & I'). exists r', B. destruct (file_of a (d_names d)); injection E as <- <-; auto.
  - apply some_inj in E. injection E as <- <-. exists r, B. split; auto. unfold ram_count. rewrite <- (f2_len _ _ _ (i_tab _ _ _ _ _ I)). auto.
  - apply some_inj in E. injection E as <- <-. destruct (clear_if_ok (fun n => negb (file_is_lock n)) ends_lck r d B T I) as (r' & E' & I'); eauto. intros n. rewrite Bool.negb_involutive. apply lock_ends.
  - apply some_inj in E. injection E as <- <-. destruct (clear_if_ok file_is_lock (fun n => negb (ends_lck n)) r d B T I) as (r' & E' & I'); eauto. intros n. rewrite lock_ends. auto.
  - apply some_inj in E. injection E as <- <-. destruct (clear_if_ok (fun _ => true) (fun _ => false) r d B T I) as (r' & E' & I'); auto. exists r', B. split; auto. replace [] with (only (fun _ => false) (d_names d)); auto. unfold only. induction (d_names d); auto.
  - apply some_inj in E. injection E as <- <-. pose proof (inv_look H r d B T n I) as L. unfold ram_length. exists r, B. split; auto. destruct (file_of n (d_names d)) as [f|].
    + destruct L as (e & y & L1 & L2 & L3 & L4 & L5 & L6). rewrite L1. cbn [obind]. rewrite L3, L5. cbn [obind]. rewrite L6. auto.
    + rewrite L. auto.
  - apply some_inj in E. destruct (create_ok r d B T n I) as (r' & E' & I'). exists r', B. unfold created in *. rewrite E in *. cbn [fst snd] in *. auto.
  - apply some_inj in E. destruct (open_ok r d B T n I) as (r' & E' & I'). exists r', B. destruct (file_of n (d_names d)) as [f|]; [rewrite E in *|injection E as <- <-]; auto.
  - destruct (nth_error (d_open d) h) as [[[f p]|]|] eqn:Eh; try discriminate. apply some_inj in E. injection E as <- <-. destruct (write_ok r d B T h b f p I Eh) as (r' & E' & I'). eauto.
  - destruct (nth_error (d_open d) h) as [[[f p]|]|] eqn:Eh; try discriminate. apply some_inj in E. injection E as <- <-. destruct (open_cell r d B T h f p I Eh) as (E1 & _ & y & Ey & Ed). exists r, B. unfold stream_read. rewrite E1. cbn [obind fst]. rewrite Ey. cbn [obind]. rewrite Ed. auto.
  - destruct (nth_error (d_open d) h) as [[s|]|] eqn:Eh; try discriminate. apply some_inj in E. injection E as <- <-. destruct (close_ok r d B T h s I Eh) as (r' & E' & I'). eauto.
Qed.
Lemma run_ok os : forall r d B T xs d', inv H r d B T -> does_all d os = Some (xs, d') -> exists r' B', run H r os = Some (xs, r') /\ inv H r' d' B' (rev (concat (map (fun o => rev (touched o)) os)) ++ T).
Proof.
  induction os as [|o os IH]; intros r d B T xs d' I E; cbn [does_all run] in *.
  - apply some_inj in E. injection E as <- <-. exists r, B. auto.
  - destruct (does d o) as [[x d1]|] eqn:E1; [|discriminate]. cbn [fst snd] in E. destruct (does_all d1 os) as [[ys d2]|] eqn:E2; [|discriminate]. apply some_inj in E. cbn [fst snd] in E. injection E as <- <-.
    destruct (step_ok r d B T o x d1 I E1) as (r1 & B1 & S1 & I1). rewrite S1. cbn [obind fst snd]. destruct (IH r1 d1 B1 _ ys d2 I1 E2) as (r2 & B2 & S2 & I2). rewrite S2. cbn [obind fst snd]. exists r2, B2. split; auto.
    cbn [map concat]. rewrite rev_app_distr, rev_involutive, <- app_assoc. exact I2.
Qed.
Lemma new_inv : inv H new_ram empty_dir [] [].
Proof.
  split; cbn; auto; [|split; constructor|tauto]. split; cbn; auto; try tauto; unfold cell; intros f; destruct f; cbn; discriminate.
Qed.
End MORE.

Section END.
Variable H : list Z -> Z.
Lemma inv_behaves r d B T : inv H r d B T -> behaves H r d.
Proof. intros I os xs d' E. destruct (run_ok H os r d B T xs d' I E) as (r' & B' & E' & _). eauto. Qed.
Lemma each_deref t0 o t : forall ss fs B data c P, core ss fs B data c P -> (forall g, count_occ Nat.eq_dec (map e_file t) g <= c g)%nat ->
  exists fs' P', each_entry deref (mkRam ss fs t0 o) t = Some (mkRam ss fs' t0 o) /\ core ss fs' B data (fun g => c g - count_occ Nat.eq_dec (map e_file t) g)%nat P' /\ (forall g, In g P' <-> In g (map e_file t) \/ In g P) /\ same_names ss fs ss fs' B.
Proof.
  induction t as [|e t IH]; intros ss fs B data c P C L; cbn [each_entry map].
  - exists fs, P. split; auto. split; [eapply core_ext; [exact C|]; intros g; cbn; lia|]. split; [cbn; tauto|apply same_refl].
  - destruct (deref_core ss fs B data c P t0 o (e_file e) C) as (fs1 & E1 & C1 & S1). { specialize (L (e_file e)). cbn [map] in L. rewrite count_occ_cons_eq in L by auto. lia. }
    rewrite E1. cbn [obind]. assert (D : forall g, (c g - count_occ Nat.eq_dec (e_file e :: map e_file t) g = down c (e_file e) g - count_occ Nat.eq_dec (map e_file t) g)%nat).
    { intros g. unfold down. destruct (Nat.eqb_spec g (e_file e)) as [->|Hg]; [rewrite count_occ_cons_eq by auto; lia|rewrite count_occ_cons_neq by auto; auto]. }
    destruct (IH ss fs1 B data (down c (e_file e)) (e_file e :: P) C1) as (fs' & P' & E2 & C2 & K & S2).
    { intros g. specialize (L g). cbn [map] in L. unfold down. destruct (Nat.eqb_spec g (e_file e)) as [->|Hg]; [rewrite count_occ_cons_eq in L by auto; lia|rewrite count_occ_cons_neq in L by auto; auto]. }
    exists fs', P'. split; auto. split; [eapply core_ext; [exact C2|exact D]|]. split; [intros g; rewrite K; cbn; tauto|]. eapply same_trans; eauto.
Qed.
Lemma each_close t0 o t : forall ss fs B data c P, core ss fs B data c P -> NoDup (map e_file t) -> incl (map e_file t) P ->
  exists ss' fs' P', each_entry rf_close (mkRam ss fs t0 o) t = Some (mkRam ss' fs' t0 o) /\ core ss' fs' B data c P' /\ (forall g, In g P' <-> In g P /\ ~ In g (map e_file t)) /\ same_names ss fs ss' fs' B.
Proof.
  induction t as [|e t IH]; intros ss fs B data c P C N L; cbn [each_entry map] in *.
  - exists ss, fs, P. split; auto. split; auto. split; [cbn; tauto|apply same_refl].
  - inversion_clear N as [|? ? N1 N2]. destruct (close_core ss fs B data c P t0 o (e_file e) C) as (ss1 & fs1 & E1 & C1 & S1); [apply L; left; auto|]. rewrite E1. cbn [obind].
    destruct (IH ss1 fs1 B data c (remove Nat.eq_dec (e_file e) P) C1 N2) as (ss' & fs' & P' & E2 & C2 & K & S2).
    { intros g Hg. apply rm_in. split; [apply L; right; auto|]. intros ->. auto. }
    exists ss', fs', P'. split; auto. split; auto. split; [|eapply same_trans; eauto]. intros g. rewrite K, rm_in. cbn. split; [intros ((A1 & A2) & A3); split; auto; intros [X|X]; auto|intros (A1 & A2); split; [split; auto|]; auto].
Qed.
Lemma tab_files ss fs B t l : Forall2 (fits H ss fs B) t l -> map e_file t = map snd l.
Proof. intros F. induction F as [|e x t l (F1 & F2 & _) F IH]; cbn; congruence. Qed.
Lemma cnt_occ l g : cnt l g = count_occ Nat.eq_dec (map snd l) g.
Proof. induction l as [|x l IH]; auto. rewrite cnt_cons. cbn [map]. destruct (Nat.eqb_spec (snd x) g) as [E|E]; [rewrite count_occ_cons_eq by auto|rewrite count_occ_cons_neq by auto]; lia. Qed.
Lemma store_close_ok r d B T : inv H r d B T -> exists r', ram_close r = Some r' /\ inv H r' (named d []) B T.
Proof.
  intros [C F N O BB]. destruct r as [ss fs t o]. unfold ram_close. cbn [r_strs r_files r_tab r_open] in *. subst o. pose proof (tab_files _ _ _ _ _ F) as TF.
  destruct (each_deref t (d_open d) t ss fs B (d_data d) _ [] C) as (fs1 & P1 & E1 & C1 & K1 & S1). { intros g. rewrite TF, <- cnt_occ. unfold refs. lia. }
  rewrite E1. cbn [obind]. destruct (each_close t (d_open d) t ss fs1 B (d_data d) _ P1 C1) as (ss2 & fs2 & P2 & E2 & C2 & K2 & S2). { rewrite TF. apply N. } { intros g Hg. apply K1. auto. }
  rewrite E2. cbn [obind]. eexists. split; [reflexivity|]. assert (P2 = []). { destruct P2 as [|g P2]; auto. exfalso. destruct (proj1 (K2 g) ltac:(left; auto)) as (A1 & A2). apply K1 in A1. cbn in A1. tauto. } subst P2.
  split; cbn [r_strs r_files r_tab r_open with_tab named d_names d_data d_open].
  - eapply core_ext; [exact C2|]. intros g. cbn beta. rewrite TF, <- cnt_occ. unfold refs, cnt at 1. cbn. lia.
  - constructor.
  - split; constructor.
  - reflexivity.
  - apply (bor_same ss fs ss2 fs2 B T); [|exact BB]. exact (same_trans _ _ _ _ _ _ _ S1 S2).
Qed.
Lemma cnto_none o f : Forall (fun x => x = None) o -> cnto o f = 0%nat.
Proof. intros F. unfold cnto. induction F as [|x l E F IH]; [reflexivity|]. subst x. cbn. exact IH. Qed.
Lemma closed_free r d B T : inv H r d B T -> d_names d = [] -> Forall (fun o => o = None) (d_open d) -> (forall f, cell (r_files r) f = None) /\ (forall p n, cell (r_strs r) p = Some n -> In n T).
Proof.
  intros [C F N O BB] E1 E2. assert (Z : forall f, refs (d_names d) (d_open d) f = 0%nat). { intros f. unfold refs. rewrite E1, cnto_none by auto. reflexivity. }
  assert (K : forall f, cell (r_files r) f = None). { intros f. destruct (cell (r_files r) f) as [y|] eqn:E; auto. destruct (co_live _ _ _ _ _ _ C f y E) as ([A|A] & _); [rewrite Z in A; lia|destruct A]. }
  split; auto. intros p n Hp. destruct (co_all _ _ _ _ _ _ C p n Hp) as [Hb|(f & x & Ex & _)]; [|rewrite K in Ex; discriminate]. destruct (BB p Hb) as (m & Em & Hm). congruence.
Qed.
Lemma set_last {A} (l : list A) x y : set_nth (l ++ [x]) (length l) y = l ++ [y].
Proof. induction l as [|a l IH]; cbn; auto. f_equal. auto. Qed.
Lemma nth_last {A} (l : list A) x : nth_error (l ++ [x]) (length l) = Some x.
Proof. rewrite nth_error_app2, Nat.sub_diag; auto. Qed.
Lemma each_names r es l B : Forall2 (fits H (r_strs r) (r_files r) B) es l -> ram_each r es = Some (filter kept_by_copy (map fst l)).
Proof.
  intros F. induction F as [|e [n f] es l (F1 & F2 & F3 & y & F4 & F5 & _) F IH]; [reflexivity|]. cbn [ram_each map filter fst] in *. rewrite F4. cbn [obind]. rewrite F5. cbn [obind]. rewrite IH. cbn [obind]. f_equal. unfold prefixed, kept_by_copy.
  destruct (name_dec (firstn 7 n) (str "ferret-")) as [->|K]; [reflexivity|]. destruct (beqb (firstn 7 n) (str "ferret-")) eqn:E; auto. apply beqb_eq in E. contradiction.
Qed.
Lemma copy_file_ok from d B T to d2 B2 T2 n f : inv H from d B T -> inv H to d2 B2 T2 -> file_of n (d_names d) = Some f -> file_of n (d_names d2) = None ->
  exists r1 r2, copy_file H from to n = Some (r1, r2) /\ inv H r1 (mkDir (d_names d) (d_data d) (d_open d ++ [None])) B T /\
  inv H r2 (mkDir (d_names d2 ++ [(n, length (d_data d2))]) (d_data d2 ++ [nth f (d_data d) []]) (d_open d2 ++ [None])) B2 T2.
Proof.
  intros I J Ef Eg. unfold copy_file. destruct (create_ok H to d2 B2 T2 n J) as (o1 & E1 & J1). unfold created in *. rewrite Eg in *. rewrite E1. cbn [obind fst snd stream_on d_open d_names d_data] in *.
  destruct (open_ok H from d B T n I) as (i1 & E2 & I1). rewrite Ef in *. rewrite E2. cbn [obind fst snd stream_on d_open d_names d_data] in *.
  destruct (open_cell H i1 _ B T (length (d_open d)) f 0%nat I1 (nth_last _ _)) as (Q1 & _ & y & Q2 & Q3). cbn [d_data] in Q3. unfold stream_read at 1. rewrite Q1. cbn [obind fst]. rewrite Q2. cbn [obind fst snd]. rewrite Q3.
  destruct (write_ok H o1 _ B2 T2 (length (d_open d2)) (nth f (d_data d) []) (length (d_data d2)) 0%nat J1 (nth_last _ _)) as (o2 & E3 & J2). rewrite E3. cbn [obind fst snd d_names d_data d_open] in *. rewrite set_last, set_last, nth_middle in J2.
  destruct (close_ok H i1 _ B T (length (d_open d)) _ I1 (nth_last _ _)) as (i2 & E4 & I2). rewrite E4. cbn [obind fst snd d_names d_data d_open] in *. rewrite set_last in I2.
  destruct (close_ok H o2 _ B2 T2 (length (d_open d2)) _ J2 (nth_last _ _)) as (o3 & E5 & J3). rewrite E5. cbn [obind fst snd d_names d_data d_open] in *. rewrite set_last in J3. exists i2, o3. split; auto. split; auto.
  rewrite skipn_nil, app_nil_r in J3. exact J3.
Qed.
Lemma file_of_app n l m f : file_of n (l ++ [(m, f)]) = match file_of n l with Some g => Some g | None => if name_dec m n then Some f else None end.
Proof. induction l as [|[k g] l IH]; cbn; auto. destruct (name_dec k n); auto. Qed.
Lemma copy_files_ok ns : forall from d B T to d2 B2 T2, inv H from d B T -> inv H to d2 B2 T2 -> (forall n, In n ns -> file_of n (d_names d) <> None) -> NoDup ns -> (forall n, In n ns -> file_of n (d_names d2) = None) ->
  exists r1 r2 d3, copy_files H from to ns = Some (r1, r2) /\ inv H r1 (mkDir (d_names d) (d_data d) (d_open d ++ repeat None (length ns))) B T /\ inv H r2 d3 B2 T2 /\
  map fst (d_names d3) = map fst (d_names d2) ++ ns /\ (forall n, In n ns -> content n d3 = content n d) /\ (forall n, ~ In n ns -> content n d3 = content n d2).
Proof.
  induction ns as [|n ns IH]; intros from d B T to d2 B2 T2 I J K N L; cbn [copy_files].
  - exists from, to, d2. cbn [length repeat]. rewrite !app_nil_r. destruct d. split; auto. split; auto. split; auto. split; auto. split; [intros m []|auto].
  - inversion_clear N as [|? ? N1 N2]. destruct (file_of n (d_names d)) as [f|] eqn:Ef; [|exfalso; apply (K n); [left; auto|auto]].
    destruct (copy_file_ok from d B T to d2 B2 T2 n f I J Ef (L n ltac:(left; auto))) as (r1 & r2 & E1 & I1 & J1). rewrite E1. cbn [obind fst snd].
    destruct (IH r1 _ B T r2 _ B2 T2 I1 J1) as (s1 & s2 & d3 & E2 & I2 & J2 & M & C1 & C2).
    { intros m Hm. cbn [d_names]. apply K. right. auto. } { auto. }
    { intros m Hm. cbn [d_names]. rewrite file_of_app, (L m) by (right; auto). destruct (name_dec n m) as [->|]; [contradiction|auto]. }
    exists s1, s2, d3. split; auto. cbn [d_names d_data d_open] in *. split; [rewrite <- app_assoc in I2; exact I2|]. split; auto. split; [rewrite M, map_app, <- app_assoc; auto|].
    assert (A : forall m, content m (mkDir (d_names d2 ++ [(n, length (d_data d2))]) (d_data d2 ++ [nth f (d_data d) []]) (d_open d2 ++ [None])) = if name_dec n m then content m d else content m d2).
    { intros m. unfold content. cbn [d_names d_data]. rewrite file_of_app. destruct (name_dec n m) as [<-|Hm].
      - rewrite (L n) by (left; auto). rewrite Ef, nth_middle. auto.
      - destruct (file_of m (d_names d2)) as [g|] eqn:Eg; auto. f_equal. apply app_nth1.
        pose proof (inv_look H to d2 B2 T2 m J) as Q. rewrite Eg in Q. destruct Q as (_ & y & _ & _ & _ & _ & Q & _). apply cell_lt in Q. rewrite (co_len _ _ _ _ _ _ (i_core _ _ _ _ _ J)) in Q. auto. }
    split.
    + intros m [<-|Hm]; [|rewrite C1; auto; reflexivity]. rewrite C2 by auto. rewrite A. destruct (name_dec n n); [auto|congruence].
    + intros m Hm. rewrite C2 by (intros X; apply Hm; right; auto). rewrite A. destruct (name_dec n m) as [->|]; auto. exfalso. apply Hm. left. auto.
Qed.
Lemma copy_ok r d B T : inv H r d B T -> exists r1 r2 d2 k, open_and_copy H r = Some (r1, r2) /\ inv H r1 (mkDir (d_names d) (d_data d) (d_open d ++ repeat None k)) B T /\ inv H r2 d2 [] [] /\
  map fst (d_names d2) = filter kept_by_copy (map fst (d_names d)) /\ (forall n, content n d2 = if kept_by_copy n then content n d else None).
Proof.
  intros I. unfold open_and_copy. rewrite (each_names _ _ _ _ (i_tab _ _ _ _ _ I)). cbn [obind]. set (ns := filter kept_by_copy (map fst (d_names d))).
  assert (X : forall n, In n (map fst (d_names d)) <-> file_of n (d_names d) <> None). { intros n. rewrite file_of_none. destruct (in_dec name_dec n (map fst (d_names d))); tauto. }
  destruct (copy_files_ok ns r d B T new_ram empty_dir [] [] I (new_inv H)) as (r1 & r2 & d3 & E & I1 & J1 & M & C1 & C2).
  { intros n Hn. apply filter_In in Hn. apply X. tauto. } { apply NoDup_filter. apply (i_ok _ _ _ _ _ I). } { intros; reflexivity. }
  exists r1, r2, d3, (length ns). split; auto. split; auto. split; auto. split; auto. intros n. destruct (in_dec name_dec n ns) as [Hn|Hn].
  - rewrite C1 by auto. apply filter_In in Hn. rewrite (proj2 Hn). auto.
  - rewrite C2 by auto. cbn. destruct (kept_by_copy n) eqn:Ek; auto. unfold content. destruct (file_of n (d_names d)) eqn:Ef; auto. exfalso. apply Hn. apply filter_In. split; auto. apply X. congruence.
Qed.
End END.

Lemma ends_lck_lock n : ends_lck n = true <-> lock_name n.
Proof.
  unfold ends_lck, lock_name. destruct (name_dec (skipn (length n - 4) n) (str ".lck")) as [E|E].
  - rewrite Bool.andb_true_r, Nat.ltb_lt. split.
    + intros L. exists (firstn (length n - 4) n). split; [|rewrite <- E, firstn_skipn; auto]. intros K. apply (f_equal (@length Z)) in K. rewrite firstn_length in K. cbn in K. lia.
    + intros (t & Ht & ->). rewrite app_length. cbn. destruct t; [congruence|cbn; lia].
  - rewrite Bool.andb_false_r. split; [discriminate|]. intros (t & Ht & ->). exfalso. apply E. rewrite app_length. replace (length t + length (str ".lck") - 4)%nat with (length t) by (cbn; lia). rewrite skipn_app, skipn_all, Nat.sub_diag. reflexivity.
Qed.
Lemma stream_names os : forall d xs d', Forall stream_op os -> does_all d os = Some (xs, d') -> d_names d' = d_names d.
Proof.
  induction os as [|o os IH]; intros d xs d' F E; cbn [does_all] in E; [apply some_inj in E; injection E as <- <-; auto|]. inversion_clear F as [|? ? F1 F2]. destruct (does d o) as [[x d1]|] eqn:E1; [|discriminate]. cbn [fst snd] in E.
  destruct (does_all d1 os) as [[ys d2]|] eqn:E2; [|discriminate]. apply some_inj in E. cbn [fst snd] in E. injection E as <- <-. rewrite (IH _ _ _ F2 E2).
  destruct o; cbn [stream_op] in F1; try contradiction; cbn [does] in E1; destruct (nth_error (d_open d) h) as [[[f p]|]|]; try discriminate; apply some_inj in E1; injection E1 as <- <-; auto.
Qed.
Lemma touched_in os n : In n (rev (concat (map (fun o => rev (touched o)) os)) ++ []) -> In (Touch n) os.
Proof.
  rewrite app_nil_r, <- in_rev, in_concat. intros (l & Hl & Hn). apply in_map_iff in Hl. destruct Hl as (o & <- & Ho). rewrite <- in_rev in Hn. destruct o; cbn in Hn; try contradiction. destruct Hn as [->|[]]. auto.
Qed.
Lemma stream_touched os : Forall stream_op os -> rev (concat (map (fun o => rev (touched o)) os)) = [].
Proof.
  intros F. assert (K : concat (map (fun o => rev (touched o)) os) = []). { induction F as [|o os F0 F IH]; auto. cbn [map concat]. rewrite IH, app_nil_r. destruct o; cbn in *; auto; contradiction. }
  rewrite K. reflexivity.
Qed.
Section REFUTED.
Variable H : list Z -> Z.
Lemma close_all os xs d os2 ys d2 : does_all empty_dir os = Some (xs, d) -> Forall stream_op os2 -> does_all (named d []) os2 = Some (ys, d2) ->
  exists r r1 r2, run H new_ram os = Some (xs, r) /\ ram_close r = Some r1 /\ run H r1 os2 = Some (ys, r2) /\
  (Forall (fun o => o = None) (d_open d2) -> (forall f, cell (r_files r2) f = None) /\ (forall p n, cell (r_strs r2) p = Some n -> In (Touch n) os)).
Proof.
  intros E1 F E2. destruct (run_ok H os _ _ _ _ _ _ (new_inv H) E1) as (r & B & R1 & I1). destruct (store_close_ok H r d B _ I1) as (r1 & R2 & I2). destruct (run_ok H os2 _ _ _ _ _ _ I2 E2) as (r2 & B2 & R3 & I3).
  exists r, r1, r2. split; auto. split; auto. split; auto. intros Ho. rewrite (stream_touched _ F) in I3. destruct (closed_free H _ _ _ _ I3 ltac:(rewrite (stream_names _ _ _ _ F E2); reflexivity) Ho) as (A1 & A2). split; auto. intros p n Hp. apply touched_in. exact (A2 p n Hp).
Qed.
Lemma copy_all os xs d : does_all empty_dir os = Some (xs, d) -> exists r r1 r2 d2 k, run H new_ram os = Some (xs, r) /\ open_and_copy H r = Some (r1, r2) /\ behaves H r1 (mkDir (d_names d) (d_data d) (d_open d ++ repeat None k)) /\ behaves H r2 d2 /\
  map fst (d_names d2) = filter kept_by_copy (map fst (d_names d)) /\ (forall n, content n d2 = if kept_by_copy n then content n d else None).
Proof.
  intros E1. destruct (run_ok H os _ _ _ _ _ _ (new_inv H) E1) as (r & B & R1 & I1). destruct (copy_ok H r d B _ I1) as (r1 & r2 & d2 & k & R2 & J1 & J2 & A1 & A2). exists r, r1, r2, d2, k. split; auto. split; auto. split; [eapply inv_behaves; eauto|]. split; [eapply inv_behaves; eauto|]. auto.
Qed.
Lemma delete_all os xs d n : does_all empty_dir os = Some (xs, d) -> exists r r1, run H new_ram os = Some (xs, r) /\ frb_dir_delete H r n = Some (match file_of n (d_names d) with Some _ => false | None => true end, r1) /\ behaves H r1 (named d (without n (d_names d))).
Proof.
  intros E1. destruct (run_ok H os _ _ _ _ _ _ (new_inv H) E1) as (r & B & R1 & I1). destruct (remove_ok H r d B _ n I1) as (r1 & R2 & I2). exists r, r1. split; auto. split; [|eapply inv_behaves; eauto]. unfold frb_dir_delete. rewrite R2. cbn [obind fst snd]. destruct (file_of n (d_names d)); auto.
Qed.
Lemma lookup_past ss fs B t l n t2 : Forall2 (fits H ss fs B) t l -> file_of n l = None -> lookup H ss n (t ++ t2) = lookup H ss n t2.
Proof.
  intros F. induction F as [|e [m f] t l (F1 & F2 & F3 & _) F IH]; auto. cbn [file_of app lookup fst snd] in *. destruct (name_dec m n) as [|Hm]; [discriminate|]. intros E. rewrite F1, F3. cbn [obind].
  assert (Hb : beqb m n = false). { destruct (beqb m n) eqn:Eb; auto. apply beqb_eq in Eb. congruence. } rewrite Hb, (IH E). destruct (H m =? H n); auto.
Qed.
Lemma dangling os xs d n : does_all empty_dir os = Some (xs, d) -> file_of n (d_names d) = None ->
  exists r r1, run H new_ram os = Some (xs, r) /\ ram_touch H r n = Some (Done, r1) /\ ram_exists H r1 n = Some (Yes, r1) /\
  ram_exists H (caller_frees r1 (length (r_strs r))) n = None /\
  (forall m, m <> n -> ram_exists H (caller_writes r1 (length (r_strs r)) m) n = Some (No, caller_writes r1 (length (r_strs r)) m) /\ ram_count (caller_writes r1 (length (r_strs r)) m) = Some (Num (S (length (d_names d))), caller_writes r1 (length (r_strs r)) m)).
Proof.
  intros E1 En. destruct (run_ok H os _ _ _ _ _ _ (new_inv H) E1) as (r & B & R1 & I1). exists r.
  assert (X : exists r1, ram_touch H r n = Some (Done, r1) /\ r_strs r1 = (r_strs r ++ [Some n]) ++ [Some n] /\ r_tab r1 = r_tab r ++ [mkE (H n) (length (r_strs r)) (length (r_files r))]).
  { pose proof I1 as [C F N O BB]. destruct r as [ss fs t o]. cbn [r_strs r_files r_tab r_open] in *. unfold ram_touch. cbn [r_strs r_files r_tab r_open].
    assert (K : forall s, (forall p m, cell ss p = Some m -> cell s p = Some m) -> lookup H s n t = Some None).
    { intros s Hs. pose proof (lookup_fits H s fs B t (d_names d) n) as L. rewrite En in L. apply L. eapply tab_keep; [exact Hs| | |exact F]; auto. apply incl_refl. }
    rewrite K by auto using cell_keep. cbn [obind]. unfold rf_new, h_set. cbn [r_strs r_files r_tab r_open]. rewrite K by auto using cell_keep. cbn [obind]. unfold with_tab. cbn [r_strs r_files r_tab r_open]. eexists. split; [reflexivity|]. auto. }
  destruct X as (r1 & X1 & X2 & X3). exists r1. split; auto. split; auto. destruct I1 as [C F N O BB].
  assert (LK : forall s, (forall p m, cell (r_strs r) p = Some m -> cell s p = Some m) -> lookup H s n (r_tab r1) = (do k <- cell s (length (r_strs r)); if beqb k n then Some (Some (mkE (H n) (length (r_strs r)) (length (r_files r)))) else Some None)).
  { intros s Hs. rewrite X3. rewrite (lookup_past s (r_files r) B (r_tab r) (d_names d)); auto. - cbn [lookup e_hash e_key]. rewrite Z.eqb_refl. auto. - eapply tab_keep; [exact Hs| | |exact F]; auto. apply incl_refl. }
  assert (KS : forall o p m, cell (r_strs r) p = Some m -> cell (set_nth (r_strs r1) (length (r_strs r)) o) p = Some m). { intros o p m Hp. rewrite cell_other by (apply cell_lt in Hp; lia). rewrite X2. auto using cell_keep. }
  assert (LL : (length (r_strs r) < length (r_strs r1))%nat) by (rewrite X2, !app_length; cbn; lia).
  split; [|split].
  - unfold ram_exists. rewrite LK by (intros; rewrite X2; auto using cell_keep). assert (K : cell (r_strs r1) (length (r_strs r)) = Some n) by (rewrite X2; apply cell_keep; apply cell_new). rewrite K. cbn [obind]. rewrite beqb_refl. reflexivity.
  - unfold ram_exists, caller_frees. cbn [r_strs r_tab]. rewrite LK by apply KS. rewrite cell_same by auto. reflexivity.
  - intros m Hm. split.
    + unfold ram_exists. assert (L2 : lookup H (r_strs (caller_writes r1 (length (r_strs r)) m)) n (r_tab (caller_writes r1 (length (r_strs r)) m)) = Some None).
      { unfold caller_writes. cbn [r_strs r_tab]. rewrite LK by apply KS. rewrite cell_same by auto. cbn [obind]. destruct (beqb m n) eqn:Eb; auto. apply beqb_eq in Eb. contradiction. }
      rewrite L2. reflexivity.
    + unfold ram_count, caller_writes. cbn [r_tab]. rewrite X3, app_length, (f2_len _ _ _ F). cbn [length]. rewrite Nat.add_1_r. reflexivity.
Qed.
End REFUTED.
