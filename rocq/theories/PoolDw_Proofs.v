(* the DocWriter in its pool *)
From Verif Require Import Util Pool_Model Pool_Spec Pool_Proofs.
Open Scope Z_scope.
Definition norm_ids (l : list (Z * option nat)) : list nat := flat_map (fun x : Z * option nat => match snd x with Some k => [k] | None => [] end) l.
Lemma nodup_l {A} (l m : list A) : NoDup (l ++ m) -> NoDup l.
Proof. induction l as [|x l IH]; intros H; [constructor|]. cbn [app] in H. inversion H as [|? ? N1 N2]; subst. constructor; [intros G; apply N1; apply in_app_iff; auto|auto]. Qed.
Lemma nodup_r {A} (l m : list A) : NoDup (l ++ m) -> NoDup m.
Proof. induction l as [|x l IH]; intros H; [exact H|]. cbn [app] in H. inversion H; auto. Qed.
Section DW.
  Variable has_norms : Z -> bool.
  Variables (H C ch : Z).
  Hypotheses (HC : 2 * H <= C) (HM : C <= INT_MAX) (HCH : 2 * ch <= INT_MAX) (H32 : 32 <= ch).
  Record W (w : dw) (b : list (list fld)) (pd : list fld) (seen : list Z) (bs obs : list (list Z)) : Prop := mkW {
    W_inv : Inv H C ch (w_mem w) bs;
    W_max : 0 <= w_max w <= ch;
    W_doc : w_doc w = Z.of_nat (length b);
    W_own : Forall2 (fun k bytes => nth_error bs k = Some bytes) (w_own w) obs;
    W_names : NoDup (map fst (w_flds w));
    W_seen : forall f, In f (map fst (w_flds w)) <-> In f seen;
    W_kind : forall f o, In (f, o) (w_flds w) -> match o with
      | Some k => has_norms f = true /\ exists arr, nth_error bs k = Some arr /\ length arr = Z.to_nat (w_max w) /\ forall i, (i < length arr)%nat -> nth i arr 0 = nth i (map (norm_of f) (b ++ [pd])) 0
      | None => has_norms f = false end;
    W_apart : NoDup (w_own w ++ norm_ids (w_flds w)) }.
  Lemma inv_len s bs : Inv H C ch s bs -> length (snd s) = length bs.
  Proof. intros HI. apply (i_len _ _ _ _ _ HI). Qed.
  Lemma inverter_some l f o : inverter l f = Some o -> In (f, o) l.
  Proof. induction l as [|(g, x) l IH]; cbn [inverter fst snd]; [discriminate|]. destruct (Z.eqb_spec g f); intros E; [apply some_inj in E; subst; left; reflexivity|right; auto]. Qed.
  Lemma inverter_none l f : inverter l f = None -> ~ In f (map fst l).
  Proof. induction l as [|(g, x) l IH]; cbn [inverter fst snd map In]; [tauto|]. destruct (Z.eqb_spec g f); [discriminate|]. intros E [G|G]; [contradiction|]. apply (IH E G). Qed.
  Lemma norm_ids_app l m : norm_ids (l ++ m) = norm_ids l ++ norm_ids m.
  Proof. apply flat_map_app. Qed.
  Lemma in_norm_ids l k : In k (norm_ids l) <-> exists f, In (f, Some k) l.
  Proof.
    unfold norm_ids. rewrite in_flat_map. split; [intros ((f, o) & G1 & G2); destruct o as [k'|]; [destruct G2 as [<-|[]]; eauto|destruct G2]|intros (f & G); exists (f, Some k); split; [exact G|left; reflexivity]].
  Qed.
  (* all blocks in use are below the number of blocks *)
  Lemma ids_below w b pd seen bs obs k : W w b pd seen bs obs -> In k (w_own w ++ norm_ids (w_flds w)) -> (k < length bs)%nat.
  Proof.
    intros HW Hk. apply nth_error_Some. apply in_app_iff in Hk. destruct Hk as [Hk|Hk].
    - pose proof (W_own _ _ _ _ _ _ HW) as G. clear HW. revert Hk. induction G as [|k' x l m G1 G2 IH]; intros Hk; [destruct Hk|]. destruct Hk as [<-|Hk]; [congruence|auto].
    - apply in_norm_ids in Hk. destruct Hk as (f & Hf). destruct (W_kind _ _ _ _ _ _ HW f _ Hf) as (_ & arr & E & _). congruence.
  Qed.
  Lemma nodup_new (l m : list nat) k : NoDup (l ++ m) -> ~ In k (l ++ m) -> NoDup ((l ++ [k]) ++ m).
  Proof. intros H1 H2. rewrite <- app_assoc. cbn [app]. apply NoDup_Add with (a := k) (l := l ++ m); [apply Add_app|]. auto. Qed.
  Lemma F2_mono (P Q : nat -> list Z -> Prop) l m : (forall k x, In k l -> P k x -> Q k x) -> Forall2 P l m -> Forall2 Q l m.
  Proof. intros HI HF. induction HF as [|k x l m G1 G2 IH]; constructor; [apply HI; [left; reflexivity|exact G1]|apply IH; intros; apply HI; [right; assumption|assumption]]. Qed.
  Lemma grow_ok (bs : list (list Z)) x k y : nth_error bs k = Some y -> nth_error (bs ++ [x]) k = Some y.
  Proof. intros E. rewrite nth_error_app1; [exact E|apply nth_error_Some; congruence]. Qed.
  Lemma grow_kind w b pd seen bs obs x f o : W w b pd seen bs obs -> In (f, o) (w_flds w) ->
    match o with
    | Some k => has_norms f = true /\ exists arr, nth_error (bs ++ [x]) k = Some arr /\ length arr = Z.to_nat (w_max w) /\ forall i, (i < length arr)%nat -> nth i arr 0 = nth i (map (norm_of f) (b ++ [pd])) 0
    | None => has_norms f = false end.
  Proof. intros HW Hf. pose proof (W_kind _ _ _ _ _ _ HW f o Hf) as G. destruct o as [k|]; [|exact G]. destruct G as (G1 & arr & G2 & G3). split; [exact G1|]. exists arr. split; [apply grow_ok; exact G2|exact G3]. Qed.
  Lemma dup_ok w b pd seen bs obs x : W w b pd seen bs obs -> Z.of_nat (length x) <= ch -> p_bp (fst (w_mem w)) + 2 <= H ->
    exists s, pstep (w_mem w) (Dup x) = Some s /\ p_bp (fst s) <= p_bp (fst (w_mem w)) + 1 /\ W (mkDw s (w_max w) (w_doc w) (w_flds w) (w_own w)) b pd seen (bs ++ [x]) obs.
  Proof.
    intros HW Hx HB. destruct (step_ok H C ch (w_mem w) bs (Dup x) _ (W_inv _ _ _ _ _ _ HW) HC HM HCH HB Hx eq_refl) as (s & E & HI & G). exists s. split; [exact E|]. split; [exact G|]. pose proof HW as [A1 A0 A2 A3 A5 A6 A7 A8]. constructor; cbn [w_mem w_max w_doc w_flds w_own]; try assumption.
    - revert A3. apply F2_mono. intros k y _. apply grow_ok.
    - intros f o Hf. apply (grow_kind _ _ _ _ _ _ x f o HW Hf).
  Qed.
  Lemma get_ok w b pd seen bs obs f : W w b pd seen bs obs -> p_bp (fst (w_mem w)) + 3 <= H ->
    (forall d, In d (b ++ [pd]) -> ~ In f seen -> norm_of f d = 0) ->
    exists k w' bs', get_inv has_norms w f = Some (k, w') /\ p_bp (fst (w_mem w')) <= p_bp (fst (w_mem w)) + 2 /\ In (f, k) (w_flds w') /\ W w' b pd (f :: seen) bs' obs /\ w_max w' = w_max w /\ w_own w' = w_own w.
  Proof.
    intros HW HB HZ. unfold get_inv. destruct (inverter (w_flds w) f) as [k|] eqn:EI.
    - exists k, w, bs. apply inverter_some in EI. split; [reflexivity|]. split; [lia|]. split; [exact EI|]. split; [|auto]. pose proof HW as [A1 A0 A2 A3 A5 A6 A7 A8]. constructor; try assumption. intros g. rewrite A6. cbn [In]. split; [auto|]. intros [<-|G]; [|exact G]. apply A6. apply (in_map fst _ _ EI).
    - apply inverter_none in EI. destruct (dup_ok w b pd seen bs obs (repeat 0 sizeof_inverter) HW ltac:(rewrite repeat_length; exact H32) ltac:(lia)) as (s & E & Gb & HW1). rewrite E. cbn [obind]. pose proof (W_inv _ _ _ _ _ _ HW1) as HI1. cbn [w_mem] in HI1. pose proof (inv_len _ _ HI1) as EL.
      assert (HS : ~ In f seen) by (intros G; apply EI; apply (W_seen _ _ _ _ _ _ HW); exact G).
      destruct (has_norms f) eqn:EN.
      + destruct (step_ok H C ch s _ (Zero (w_max w)) _ HI1 HC HM HCH ltac:(lia) (W_max _ _ _ _ _ _ HW) eq_refl) as (s' & E' & HI' & Gb'). rewrite E'. cbn [obind]. eexists _, _, _. split; [reflexivity|]. cbn [w_mem w_max w_doc w_flds w_own]. split; [lia|]. split; [apply in_app_iff; right; left; reflexivity|]. split; [|auto].
        pose proof HW1 as [A1 A0 A2 A3 A5 A6 A7 A8]. cbn [w_mem w_max w_doc w_flds w_own] in *. constructor; cbn [w_mem w_max w_doc w_flds w_own]; try assumption.
        * exact HI'.
        * revert A3. apply F2_mono. intros k y _. apply grow_ok.
        * rewrite map_app. cbn [map fst]. apply NoDup_Add with (a := f) (l := map fst (w_flds w)); [rewrite <- (app_nil_r (map fst (w_flds w))) at 1; apply Add_app|]. auto.
        * intros g. rewrite map_app, in_app_iff, A6. cbn [map fst In]. tauto.
        * intros g o Hg. apply in_app_iff in Hg. destruct Hg as [Hg|[Hg|[]]].
          -- apply (grow_kind _ _ _ _ _ _ (repeat 0 (Z.to_nat (w_max w))) g o HW1 Hg).
          -- apply pair_equal_spec in Hg. destruct Hg as (<- & <-). split; [exact EN|]. exists (repeat 0 (Z.to_nat (w_max w))). split; [rewrite EL, nth_error_app2, Nat.sub_diag by lia; reflexivity|]. split; [apply repeat_length|]. intros i _. rewrite nth_repeat. symmetry.
             destruct (Nat.lt_ge_cases i (length (map (norm_of f) (b ++ [pd])))) as [G|G]; [|apply nth_overflow; exact G]. pose proof (nth_In (map (norm_of f) (b ++ [pd])) 0 G) as G1. apply in_map_iff in G1. destruct G1 as (d & G1 & G2). rewrite <- G1. apply HZ; assumption.
        * rewrite norm_ids_app. cbn [norm_ids flat_map snd app]. rewrite app_assoc. pose proof (nodup_new (w_own w ++ norm_ids (w_flds w)) [] (length (snd s)) ltac:(rewrite app_nil_r; exact A8)) as G. rewrite !app_nil_r in G. apply G. intros Hin. pose proof (ids_below _ _ _ _ _ _ _ HW1 Hin). lia.
      + eexists _, _, _. split; [reflexivity|]. cbn [w_mem w_max w_doc w_flds w_own]. split; [lia|]. split; [apply in_app_iff; right; left; reflexivity|]. split; [|auto].
        pose proof HW1 as [A1 A0 A2 A3 A5 A6 A7 A8]. cbn [w_mem w_max w_doc w_flds w_own] in *. constructor; cbn [w_mem w_max w_doc w_flds w_own]; try eassumption.
        * rewrite map_app. cbn [map fst]. apply NoDup_Add with (a := f) (l := map fst (w_flds w)); [rewrite <- (app_nil_r (map fst (w_flds w))) at 1; apply Add_app|]. auto.
        * intros g. rewrite map_app, in_app_iff, A6. cbn [map fst In]. tauto.
        * intros g o Hg. apply in_app_iff in Hg. destruct Hg as [Hg|[Hg|[]]]; [apply A7; exact Hg|]. apply pair_equal_spec in Hg. destruct Hg as (<- & <-). exact EN.
        * rewrite norm_ids_app. cbn [norm_ids flat_map snd app]. rewrite app_nil_r. exact A8.
  Qed.
  Lemma acts_app l m : forall bs, acts_blocks bs (l ++ m) = do b <- acts_blocks bs l; acts_blocks b m.
  Proof. induction l as [|a l IH]; intros bs; [reflexivity|]. cbn [app acts_blocks]. destruct (act_blocks bs a); [apply IH|reflexivity]. Qed.
  Lemma F2_nth (P : nat -> list Z -> Prop) l m j y : Forall2 P l m -> nth_error m j = Some y -> exists k, nth_error l j = Some k /\ P k y.
  Proof. intros HF. revert j. induction HF as [|k x l m G1 G2 IH]; intros [|j] E; cbn in *; try discriminate; [apply some_inj in E; subst; eauto|auto]. Qed.
  Lemma act_ok w b pd seen bs obs a obs' : W w b pd seen bs obs -> act_fits ch a -> act_blocks obs a = Some obs' -> p_bp (fst (w_mem w)) + 2 <= H ->
    exists w' bs', do_act w a = Some w' /\ p_bp (fst (w_mem w')) <= p_bp (fst (w_mem w)) + 1 /\ W w' b pd seen bs' obs' /\ w_max w' = w_max w /\ w_flds w' = w_flds w.
  Proof.
    intros HW HF HS HB.
    destruct a as [x|j off v]; cbn [act_blocks do_act act_fits] in *.
    - apply some_inj in HS. subst obs'. destruct (dup_ok w b pd seen bs obs x HW HF HB) as (s & E & Gb & HW1). rewrite E. cbn [obind]. eexists _, _. split; [reflexivity|]. cbn [w_mem w_max w_doc w_flds w_own]. split; [exact Gb|]. split; [|auto].
      pose proof (inv_len _ _ (W_inv _ _ _ _ _ _ HW)) as EL. pose proof HW1 as [A1 A0 A2 A3 A5 A6 A7 A8]. cbn [w_mem w_max w_doc w_flds w_own] in *. constructor; cbn [w_mem w_max w_doc w_flds w_own]; try eassumption.
      + apply Forall2_app; [exact A3|]. constructor; [|constructor]. rewrite EL, nth_error_app2, Nat.sub_diag by lia. reflexivity.
      + apply nodup_new; [exact A8|]. intros Hin. pose proof (ids_below _ _ _ _ _ _ _ HW Hin). lia.
    - destruct (nth_error obs j) as [y|] eqn:Ey; [|discriminate]. cbn [obind] in HS. destruct ((0 <=? off) && (off <? Z.of_nat (length y))) eqn:Eb; [|discriminate]. apply some_inj in HS. subst obs'. apply andb_true_iff in Eb. destruct Eb as (T1 & T2). apply Z.leb_le in T1. apply Z.ltb_lt in T2.
      pose proof HW as [A1 A0 A2 A3 A5 A6 A7 A8]. destruct (F2_nth _ _ _ _ _ A3 Ey) as (k & Ek & Hk). rewrite Ek. cbn [obind]. destruct (poke_ok H C ch (w_mem w) bs k off v y A1 Hk ltac:(lia)) as (s & E & HI & Gb & Gs). rewrite E. cbn [obind]. eexists _, _. split; [reflexivity|]. cbn [w_mem w_max w_doc w_flds w_own]. split; [lia|]. split; [|auto].
      constructor; cbn [w_mem w_max w_doc w_flds w_own]; try eassumption.
      + assert (ND : NoDup (w_own w)) by (apply nodup_l in A8; exact A8). clear - A3 Ek Ey Hk ND. assert (HL : (k < length bs)%nat) by (apply nth_error_Some; congruence).
        assert (G : forall (l : list nat) (m : list (list Z)) j, Forall2 (fun k bytes => nth_error bs k = Some bytes) l m -> NoDup l -> nth_error l j = Some k -> nth_error m j = Some y -> Forall2 (fun k0 bytes => nth_error (upd bs k (upd y (Z.to_nat off) v)) k0 = Some bytes) l (upd m j (upd y (Z.to_nat off) v))); [|eauto].
        intros l m j' HF. revert j'. induction HF as [|k0 x0 l m G1 G2 IH]; intros j' HN E1 E2; [destruct j'; discriminate|]. inversion HN as [|? ? N1 N2]; subst. destruct j' as [|j']; cbn [nth_error upd] in *.
        * apply some_inj in E1, E2. subst k0 x0. constructor; [rewrite nth_error_upd, Nat.eqb_refl; destruct (Nat.ltb_spec k (length bs)); [reflexivity|lia]|]. revert G2. apply F2_mono. intros k1 z Hin E. rewrite nth_error_upd. destruct (Nat.eqb_spec k k1); [subst; contradiction|exact E].
        * constructor; [|apply IH; assumption]. rewrite nth_error_upd. destruct (Nat.eqb_spec k k0); [subst k0; exfalso; apply N1; apply nth_error_In with j'; exact E1|exact G1].
      + intros f o Hf. specialize (A7 f o Hf). destruct o as [k'|]; [|exact A7]. destruct A7 as (B1 & arr & B2 & B3). split; [exact B1|]. exists arr. split; [|exact B3]. rewrite nth_error_upd. destruct (Nat.eqb_spec k k'); [|exact B2]. subst k'. exfalso.
        assert (G1 : In k (norm_ids (w_flds w))) by (apply in_norm_ids; eauto). assert (G2 : In k (w_own w)) by (apply nth_error_In with j; exact Ek). clear - A8 G1 G2. induction (w_own w) as [|z l IH]; [destruct G2|]. cbn [app] in A8. inversion A8 as [|? ? N1 N2]; subst. destruct G2 as [->|G2]; [apply N1; apply in_app_iff; auto|auto].
  Qed.
  Lemma act_flat w a w' : do_act w a = Some w' -> match a with ADup _ => True | APoke _ _ _ => p_bp (fst (w_mem w')) = p_bp (fst (w_mem w)) end.
  Proof.
    destruct a as [|j off v]; [auto|]. cbn [do_act]. destruct (nth_error (w_own w) j); [|discriminate]. cbn [obind pstep]. destruct (nth_error (snd (w_mem w)) n); [|discriminate]. cbn [obind]. unfold blit. destruct (inside _ _ _); [|discriminate]. cbn [obind]. intros E. apply some_inj in E. subst w'. reflexivity.
  Qed.
  Lemma acts_ok : forall l w b pd seen bs obs obs', W w b pd seen bs obs -> Forall (act_fits ch) l -> acts_blocks obs l = Some obs' -> p_bp (fst (w_mem w)) + dups l + 1 < H ->
    exists w' bs', do_acts w l = Some w' /\ p_bp (fst (w_mem w')) <= p_bp (fst (w_mem w)) + dups l /\ W w' b pd seen bs' obs' /\ w_max w' = w_max w /\ w_flds w' = w_flds w.
  Proof.
    induction l as [|a l IH]; intros w b pd seen bs obs obs' HW HF HS HB; cbn [do_acts acts_blocks] in *.
    - apply some_inj in HS. subst obs'. exists w, bs. unfold dups. cbn [filter length]. split; [reflexivity|]. split; [lia|auto].
    - destruct (act_blocks obs a) as [o1|] eqn:E1; [|discriminate]. cbn [obind] in HS. inversion HF as [|? ? F1 F2]; subst. assert (HD : 0 <= dups l) by (unfold dups; lia).
      assert (ED : dups (a :: l) = (match a with ADup _ => 1 | _ => 0 end) + dups l) by (unfold dups; cbn [filter]; destruct a; cbn [length]; lia).
      destruct (act_ok w b pd seen bs obs a o1 HW F1 E1 ltac:(destruct a; lia)) as (w1 & bs1 & G1 & G2 & G3 & G4 & G5). pose proof (act_flat w a w1 G1) as GF. rewrite G1. cbn [obind].
      destruct (IH w1 b pd seen bs1 o1 obs' G3 F2 HS ltac:(destruct a; lia)) as (w2 & bs2 & K1 & K2 & K3 & K4 & K5). exists w2, bs2. split; [exact K1|]. split; [destruct a; lia|]. split; [exact K3|]. split; congruence.
  Qed.
  Lemma norm_snoc f pd x : norm_of f (pd ++ [x]) = if f_num x =? f then f_norm x else norm_of f pd.
  Proof. unfold norm_of. rewrite fold_left_app. reflexivity. Qed.
  Lemma nth_norms f b pd x i : f_num x <> f -> nth i (map (norm_of f) (b ++ [pd ++ [x]])) 0 = nth i (map (norm_of f) (b ++ [pd])) 0.
  Proof. intros Hx. rewrite !map_app. cbn [map]. rewrite norm_snoc. destruct (Z.eqb_spec (f_num x) f); [contradiction|reflexivity]. Qed.
  Lemma names_one (l : list (Z * option nat)) f (o o' : option nat) : NoDup (map fst l) -> In (f, o) l -> In (f, o') l -> o = o'.
  Proof.
    induction l as [|(g, y) l IH]; intros HN H1 H2; [destruct H1|]. cbn [map fst] in HN. inversion HN as [|? ? N1 N2]; subst.
    destruct H1 as [H1|H1], H2 as [H2|H2]; [congruence|apply pair_equal_spec in H1; destruct H1 as (-> & ->); destruct N1; apply (in_map fst _ _ H2)|apply pair_equal_spec in H2; destruct H2 as (-> & ->); destruct N1; apply (in_map fst _ _ H1)|auto].
  Qed.
  Lemma ids_one l f g k : NoDup (norm_ids l) -> In (f, Some k) l -> In (g, Some k) l -> f = g.
  Proof.
    induction l as [|(h, y) l IH]; intros HN H1 H2; [destruct H1|]. cbn [norm_ids flat_map snd] in HN. fold (norm_ids l) in HN.
    destruct H1 as [H1|H1], H2 as [H2|H2]; [congruence| | |].
    - apply pair_equal_spec in H1. destruct H1 as (-> & ->). cbn [app] in HN. inversion HN as [|? ? N1 N2]; subst. destruct N1. apply in_norm_ids. eauto.
    - apply pair_equal_spec in H2. destruct H2 as (-> & ->). cbn [app] in HN. inversion HN as [|? ? N1 N2]; subst. destruct N1. apply in_norm_ids. eauto.
    - apply IH; [|assumption|assumption]. destruct y; [cbn [app] in HN; inversion HN; assumption|exact HN].
  Qed.
  Lemma norm_unseen f d seen : (forall x, In x d -> In (f_num x) seen) -> ~ In f seen -> norm_of f d = 0.
  Proof.
    intros Hs Hf. unfold norm_of. assert (G : forall n, fold_left (fun n x => if f_num x =? f then f_norm x else n) d n = n); [|apply G].
    induction d as [|x d IH]; intros n; [reflexivity|]. cbn [fold_left]. destruct (Z.eqb_spec (f_num x) f) as [E|E]; [destruct Hf; rewrite <- E; apply Hs; left; reflexivity|]. apply IH. intros y Hy. apply Hs. right. exact Hy.
  Qed.
  Lemma all_some_map {A} (l : list A) : all_some _ (map Some l) = Some l.
  Proof. induction l as [|x l IH]; [reflexivity|]. cbn [map all_some obind]. rewrite IH. reflexivity. Qed.
  Lemma block_ok w b pd seen bs obs k bytes : W w b pd seen bs obs -> nth_error bs k = Some bytes -> block_at w k = Some bytes.
  Proof.
    intros HW E. pose proof (W_inv _ _ _ _ _ _ HW) as HI. unfold block_at. destruct (nth_error (snd (w_mem w)) k) as [x|] eqn:Ex; [|apply nth_error_None in Ex; rewrite (inv_len _ _ HI) in Ex; apply nth_error_None in Ex; congruence].
    cbn [obind]. destruct (i_holds _ _ _ _ _ HI k x Ex) as (b0 & G1 & G2 & _). rewrite E in G1. apply some_inj in G1. subst b0. rewrite G2. rewrite (fetch_ok H C ch _ bs k x bytes HI Ex E (length bytes) ltac:(lia)). rewrite firstn_all. reflexivity.
  Qed.
  Lemma own_ok w b pd seen bs obs : W w b pd seen bs obs -> own_blocks w = Some obs.
  Proof.
    intros HW. unfold own_blocks. transitivity (all_some (list Z) (map Some obs)); [|apply all_some_map]. f_equal. pose proof (W_own _ _ _ _ _ _ HW) as G.
    assert (HB : forall k bytes, nth_error bs k = Some bytes -> block_at w k = Some bytes) by (intros; eapply block_ok; eassumption). clear HW. induction G as [|k x l m G1 G2 IH]; [reflexivity|]. cbn [map]. rewrite (HB k x G1), IH. reflexivity.
  Qed.
  Variable most : Z.
  Hypothesis HMost : 0 <= most.
  Definition known (b : list (list fld)) (pd : list fld) (seen : list Z) : Prop := forall f, In f seen <-> exists d x, In d (b ++ [pd]) /\ In x d /\ f_num x = f.
  Lemma field_ok w b pd seen bs obs x : W w b pd seen bs obs -> known b pd seen -> Z.of_nat (length b) < w_max w -> tidy ch most x -> p_bp (fst (w_mem w)) + most + 3 < H ->
    exists w' bs' obs', add_field has_norms w x = Some w' /\ p_bp (fst (w_mem w')) <= p_bp (fst (w_mem w)) + (most + 2) /\ W w' b (pd ++ [x]) (f_num x :: seen) bs' obs' /\ w_max w' = w_max w /\ known b (pd ++ [x]) (f_num x :: seen) /\ acts_blocks obs (f_acts x obs) = Some obs'.
  Proof.
    intros HW HK HD HT HB. unfold add_field in *. destruct (HT obs) as (obs' & HS & HF & Hm). assert (HD0 : 0 <= dups (f_acts x obs)) by (unfold dups; lia).
    assert (HK' : known b (pd ++ [x]) (f_num x :: seen)).
    { intros f. cbn [In]. rewrite (HK f). split.
      - intros [<-|(d & y & G1 & G2 & G3)]; [exists (pd ++ [x]), x; split; [apply in_app_iff; cbn; auto|]; split; [apply in_app_iff; cbn; auto|reflexivity]|]. apply in_app_iff in G1. destruct G1 as [G1|[<-|[]]]; [exists d, y; split; [apply in_app_iff; auto|auto]|exists (pd ++ [x]), y; split; [apply in_app_iff; cbn; auto|]; split; [apply in_app_iff; auto|exact G3]].
      - intros (d & y & G1 & G2 & G3). apply in_app_iff in G1. destruct G1 as [G1|[<-|[]]]; [right; exists d, y; split; [apply in_app_iff; auto|auto]|]. apply in_app_iff in G2. destruct G2 as [G2|[<-|[]]]; [right; exists pd, y; split; [apply in_app_iff; cbn; auto|auto]|left; exact G3]. }
    destruct (get_ok w b pd seen bs obs (f_num x) HW ltac:(lia)) as (k & w1 & bs1 & G1 & G2 & G3 & G4 & G5 & G6).
    { intros d Hd Hf. apply norm_unseen with seen; [|exact Hf]. intros y Hy. apply HK. eauto. }
    rewrite G1. cbn [obind fst snd]. rewrite (own_ok _ _ _ _ _ _ G4). cbn [obind]. destruct (acts_ok (f_acts x obs) w1 b pd _ bs1 obs obs' G4 HF HS ltac:(lia)) as (w2 & bs2 & K1 & K2 & K3 & K4 & K5). rewrite K1. cbn [obind]. rewrite <- K5 in G3.
    pose proof K3 as [A1 A0 A2 A3 A5 A6 A7 A8]. pose proof (A7 _ _ G3) as GK. destruct k as [k|].
    - destruct GK as (N1 & arr & N2 & N3 & N4). assert (HL : (length b < length arr)%nat) by (rewrite N3, K4, G5; lia).
      destruct (poke_ok H C ch (w_mem w2) bs2 k (w_doc w2) (f_norm x) arr A1 N2 ltac:(rewrite A2; lia)) as (s & E & HI & Gb & Gs). rewrite E. cbn [obind]. eexists _, _, _. split; [reflexivity|]. cbn [w_mem w_max w_doc w_flds w_own]. split; [lia|]. split; [|split; [congruence|split; [exact HK'|exact HS]]].
      assert (Hk : In k (norm_ids (w_flds w2))) by (apply in_norm_ids; eauto). assert (HLk : (k < length bs2)%nat) by (apply nth_error_Some; congruence).
      constructor; cbn [w_mem w_max w_doc w_flds w_own]; try eassumption.
      + revert A3. apply F2_mono. intros k' y Hin Ey. rewrite nth_error_upd. destruct (Nat.eqb_spec k k'); [|exact Ey]. subst k'. exfalso. clear - A8 Hin Hk. induction (w_own w2) as [|z l IH]; [destruct Hin|]. cbn [app] in A8. inversion A8 as [|? ? N1 N2]; subst. destruct Hin as [->|Hin]; [apply N1; apply in_app_iff; auto|auto].
      + intros f o Hf. pose proof (A7 f o Hf) as GF. destruct o as [k'|]; [|exact GF]. destruct GF as (M1 & arr' & M2 & M3 & M4). split; [exact M1|]. rewrite nth_error_upd. destruct (Nat.eqb_spec k k') as [<-|Hne].
        * assert (f = f_num x) by (apply (ids_one (w_flds w2) f (f_num x) k); [apply nodup_r in A8; exact A8|exact Hf|exact G3]). subst f. rewrite N2 in M2. apply some_inj in M2. subst arr'. destruct (Nat.ltb_spec k (length bs2)); [|lia]. eexists. split; [reflexivity|]. rewrite upd_length. split; [exact M3|]. intros i Hi. rewrite nth_upd, A2, Nat2Z.id.
          rewrite map_app. cbn [map]. rewrite norm_snoc, Z.eqb_refl. specialize (M4 i Hi). rewrite map_app in M4. cbn [map] in M4. destruct (Nat.eqb_spec (length b) i) as [<-|Hni].
          -- destruct (Nat.ltb_spec (length b) (length arr)); [|lia]. cbn [andb]. rewrite app_nth2; rewrite map_length; [|lia]. rewrite Nat.sub_diag. reflexivity.
          -- cbn [andb]. rewrite M4. destruct (Nat.lt_ge_cases i (length b)) as [Gi|Gi]; [rewrite !app_nth1 by (rewrite map_length; lia); reflexivity|]. rewrite !app_nth2; rewrite ?map_length; try lia. destruct (i - length b)%nat as [|m] eqn:Em; [lia|]. destruct m; reflexivity.
        * exists arr'. split; [exact M2|]. split; [exact M3|]. intros i Hi. rewrite nth_norms; [apply M4; exact Hi|]. intros Ef. subst f. apply Hne. pose proof (names_one _ _ _ _ A5 G3 Hf) as Eo. congruence.
    - exists w2, bs2, obs'. split; [reflexivity|]. split; [lia|]. split; [|split; [congruence|split; [exact HK'|exact HS]]]. constructor; try assumption. intros f o Hf. pose proof (A7 f o Hf) as GF. destruct o as [k'|]; [|exact GF]. destruct GF as (M1 & arr' & M2 & M3 & M4). split; [exact M1|]. exists arr'. split; [exact M2|]. split; [exact M3|]. intros i Hi. rewrite nth_norms; [apply M4; exact Hi|]. intros Ef. subst f. congruence.
  Qed.
  Lemma fields_ok : forall d w b pd seen bs obs, W w b pd seen bs obs -> known b pd seen -> Z.of_nat (length b) < w_max w -> Forall (tidy ch most) d -> p_bp (fst (w_mem w)) + Z.of_nat (length d) * (most + 2) + 1 < H ->
    exists w' bs' obs' seen', add_fields has_norms w d = Some w' /\ p_bp (fst (w_mem w')) <= p_bp (fst (w_mem w)) + Z.of_nat (length d) * (most + 2) /\ W w' b (pd ++ d) seen' bs' obs' /\ w_max w' = w_max w /\ known b (pd ++ d) seen' /\ fields_blocks obs d = Some obs'.
  Proof.
    induction d as [|x d IH]; intros w b pd seen bs obs HW HK HD HF HB; cbn [add_fields fields_blocks] in *.
    - exists w, bs, obs, seen. rewrite !app_nil_r. cbn [length]. split; [reflexivity|]. split; [lia|auto].
    - inversion HF as [|? ? F1 F2]; subst. cbn [length] in *. assert (0 <= Z.of_nat (length d) * (most + 2)) by (apply Z.mul_nonneg_nonneg; lia).
      destruct (field_ok w b pd seen bs obs x HW HK HD F1 ltac:(lia)) as (w1 & bs1 & o1 & G1 & G2 & G3 & G4 & G5 & G6). rewrite G1, G6. cbn [obind].
      destruct (IH w1 b (pd ++ [x]) _ bs1 o1 G3 G5 ltac:(lia) F2 ltac:(lia)) as (w2 & bs2 & o2 & seen' & K1 & K2 & K3 & K4 & K5 & K6). rewrite <- app_assoc in K3, K5. exists w2, bs2, o2, seen'. split; [exact K1|]. split; [lia|]. split; [exact K3|]. split; [congruence|]. split; [exact K5|exact K6].
  Qed.
  Lemma norms_end f b d i : nth i (map (norm_of f) ((b ++ [d]) ++ [[]])) 0 = nth i (map (norm_of f) (b ++ [d])) 0.
  Proof.
    rewrite (map_app _ (b ++ [d])). destruct (Nat.lt_ge_cases i (length (map (norm_of f) (b ++ [d])))) as [G|G]; [rewrite app_nth1 by exact G; reflexivity|]. rewrite app_nth2 by exact G. rewrite (nth_overflow (map (norm_of f) (b ++ [d]))) by exact G. cbn [map]. destruct (i - length (map (norm_of f) (b ++ [d])))%nat as [|m]; [reflexivity|destruct m; reflexivity].
  Qed.
  Lemma doc_ok w b seen bs obs d : W w b [] seen bs obs -> known b [] seen -> Z.of_nat (length b) < w_max w -> Forall (tidy ch most) d -> p_bp (fst (w_mem w)) + Z.of_nat (length d) * (most + 2) + 1 < H ->
    exists w' bs' obs' seen', dw_add_doc has_norms w d = Some w' /\ p_bp (fst (w_mem w')) <= p_bp (fst (w_mem w)) + Z.of_nat (length d) * (most + 2) /\ W w' (b ++ [d]) [] seen' bs' obs' /\ w_max w' = w_max w /\ known (b ++ [d]) [] seen' /\ fields_blocks obs d = Some obs'.
  Proof.
    intros HW HK HD HF HB. destruct (fields_ok d w b [] seen bs obs HW HK HD HF HB) as (w1 & bs1 & o1 & seen1 & G1 & G2 & G3 & G4 & G5 & G6). unfold dw_add_doc. rewrite G1. cbn [obind]. eexists _, bs1, o1, seen1. split; [reflexivity|]. cbn [w_mem w_max w_doc w_flds w_own app] in *. split; [exact G2|]. split; [|split; [exact G4|split; [|exact G6]]].
    - pose proof G3 as [A1 A0 A2 A3 A5 A6 A7 A8]. constructor; cbn [w_mem w_max w_doc w_flds w_own]; try assumption.
      + rewrite app_length, A2. cbn [length]. lia.
      + intros f o Hf. specialize (A7 f o Hf). destruct o as [k|]; [|exact A7]. destruct A7 as (M1 & arr & M2 & M3 & M4). split; [exact M1|]. exists arr. split; [exact M2|]. split; [exact M3|]. intros i Hi. rewrite norms_end. apply M4. exact Hi.
    - intros f. rewrite (G5 f). split; intros (d' & x & E1 & E2 & E3); exists d', x; (split; [|auto]).
      + apply in_app_iff. left. exact E1.
      + apply in_app_iff in E1. destruct E1 as [E1|[<-|[]]]; [exact E1|destruct E2].
  Qed.
  Lemma flush_ok w b seen bs obs : W w b [] seen bs obs -> known b [] seen -> Z.of_nat (length b) <= w_max w -> batch_blocks [] b = Some obs ->
    exists o w' , flush w = Some (o, w') /\ segment_of has_norms b o /\ W w' [] [] [] [] [] /\ w_max w' = w_max w /\ p_bp (fst (w_mem w')) = 0 /\ p_ptr (fst (w_mem w')) = 0.
  Proof.
    intros HW HK HD HB. pose proof HW as [A1 A0 A2 A3 A5 A6 A7 A8]. unfold flush.
    set (ns := flat_map (fun x : Z * option nat => match snd x with Some k => [(fst x, map (norm_of (fst x)) b)] | None => [] end) (w_flds w)).
    assert (EN : forall f k, In (f, Some k) (w_flds w) -> norms_at w k = Some (map (norm_of f) b)).
    { intros f k Hf. destruct (A7 f _ Hf) as (_ & arr & M2 & M3 & M4). unfold norms_at. destruct (nth_error (snd (w_mem w)) k) as [x|] eqn:Ex; [|apply nth_error_None in Ex; rewrite (inv_len _ _ A1) in Ex; apply nth_error_None in Ex; congruence].
      cbn [obind]. rewrite A2. rewrite (fetch_ok H C ch _ bs k x arr A1 Ex M2 (length b) ltac:(lia)). f_equal. apply nth_ext with 0 0; [rewrite firstn_length, map_length; lia|]. intros i Hi. rewrite firstn_length in Hi. rewrite nth_firstn by lia. rewrite M4 by lia. rewrite map_app, app_nth1 by (rewrite map_length; lia). reflexivity. }
    assert (E1 : all_some _ (flat_map (fun x : Z * option nat => match snd x with Some k => [do l <- norms_at w k; Some (fst x, l)] | None => [] end) (w_flds w)) = Some ns).
    { transitivity (all_some (Z * list Z) (map Some ns)); [|apply all_some_map]. f_equal. unfold ns. clear - EN. induction (w_flds w) as [|(f, o) l IH]; [reflexivity|]. cbn [flat_map snd fst]. rewrite map_app, IH by (intros; apply EN; right; assumption). f_equal. destruct o as [k|]; [|reflexivity]. rewrite (EN f k) by (left; reflexivity). reflexivity. }
    rewrite E1. cbn [obind]. rewrite (own_ok _ _ _ _ _ _ HW). cbn [obind pstep]. eexists _, _. split; [reflexivity|]. cbn [w_mem w_max fst mp_reset p_bp p_ptr]. split; [|split; [|auto]].
    - unfold segment_of. cbn [fst snd].
      assert (HN : forall f, In f (map fst ns) <-> exists k, In (f, Some k) (w_flds w)).
      { intros f. unfold ns. rewrite in_map_iff. split.
        - intros ((g, l) & <- & G). apply in_flat_map in G. destruct G as ((h, o) & G1 & G2). destruct o as [k|]; [|destruct G2]. cbn [fst snd] in G2. destruct G2 as [G2|[]]. apply pair_equal_spec in G2. destruct G2 as (-> & _). cbn [fst]. eauto.
        - intros (k & G). exists (f, map (norm_of f) b). split; [reflexivity|]. apply in_flat_map. exists (f, Some k). split; [exact G|left; reflexivity]. }
      splits'.
      + unfold ns. clear - A5. induction (w_flds w) as [|(f, o) l IH]; [constructor|]. cbn [map fst] in A5. inversion A5 as [|? ? N1 N2]; subst. cbn [flat_map snd fst]. rewrite map_app. destruct o as [k|]; [|apply IH; exact N2]. cbn [map fst app]. constructor; [|apply IH; exact N2].
        intros G. apply N1. apply in_map_iff in G. destruct G as ((g, v) & <- & G). apply in_flat_map in G. destruct G as ((h, o) & G1 & G2). destruct o; [|destruct G2]. cbn [fst snd] in G2. destruct G2 as [G2|[]]. apply pair_equal_spec in G2. destruct G2 as (-> & _). apply (in_map fst _ _ G1).
      + intros f. rewrite HN. assert (HFd : has_field f b <-> In f seen). { rewrite (HK f). unfold has_field. split; intros (d & x & K1 & K2 & K3); exists d, x; (split; [|auto]); [apply in_app_iff; auto|]. apply in_app_iff in K1. destruct K1 as [K1|[<-|[]]]; [exact K1|destruct K2]. }
        rewrite HFd, <- A6. split.
        * intros (k & G). split; [apply (A7 f _ G)|apply (in_map fst _ _ G)].
        * intros (G1 & G2). apply in_map_iff in G2. destruct G2 as ((g, o) & <- & G2). cbn [fst] in *. specialize (A7 g o G2). destruct o as [k|]; [eauto|congruence].
      + intros f l G. unfold ns in G. apply in_flat_map in G. destruct G as ((h, o) & G1 & G2). destruct o; [|destruct G2]. cbn [fst snd] in G2. destruct G2 as [G2|[]]. apply pair_equal_spec in G2. destruct G2 as (-> & <-). reflexivity.
      + exact HB.
    - apply mkW; cbn [w_mem w_max w_doc w_flds w_own]; [apply (reset_ok _ _ _ _ _ A1)|assumption|reflexivity|constructor|constructor|intros f; reflexivity|intros f o []|constructor].
  Qed.
End DW.
