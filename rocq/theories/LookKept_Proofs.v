(* What becomes of a query that is searched for. *)
From Verif Require Import Util Strcmp Dict_Model Query_Model Expand_Model Fuzzy_Model Range_Model Tsc_Model Bool_Model Bool_Proofs Look_Model Look_Spec Look_Proofs.
Open Scope Z_scope.

Lemma changes_bool cs : changes (UBool cs) = if single cs then true else existsb (fun c : occur * uq => changes (snd c)) cs.
Proof. destruct cs as [|([| |], c) [|c2 cs]]; reflexivity. Qed.
Lemma changes_ok calc sim r fld fu : forall q q' b, rewrite1 calc sim r fld fu q = Some (q', b) -> b = changes q.
Proof.
  induction q as [q Hq|cs IH] using uq_ind2; intros q' b.
  - destruct q as [f x|f p k|f p k|f x pl mn k|f g| |cs|f m|f g|f slop ps]; cbn [rewrite1 changes]; try (intros E; apply some_inj in E; apply pair_equal_spec in E; destruct E; congruence); try (destruct (Hq cs eq_refl)).
    + destruct (prq_rewrite _ _ _ _ _ _); [|discriminate]. cbn [obind]. congruence.
    + destruct (wcq_rewrite _ _ _ _ _ _); [|discriminate]. cbn [obind]. congruence.
    + destruct (fld f); [|congruence]. destruct (fuzq_rewrite _ _ _ _ _ _ _ _ _); [|discriminate]. cbn [obind]. congruence.
    + destruct ps as [|(o, ts) [|p2 ps]]; [congruence| |destruct ts as [|? [|? ?]]; congruence]. destruct ts as [|x [|x2 ts]]; [|congruence|]; (destruct (add_terms _ _); [|discriminate]; cbn [obind]; congruence).
  - rewrite changes_bool. rewrite rewrite_bool.
    assert (G : rewrite_all calc sim r fld fu cs = Some (q', b) -> b = existsb (fun c : occur * uq => changes (snd c)) cs).
    { unfold rewrite_all. destruct (oall _) as [xs|] eqn:Ex; [|discriminate]. cbn [obind]. cbv zeta.
      assert (E : existsb (fun y : occur * (uq * bool) => snd (snd y)) xs = existsb (fun c : occur * uq => changes (snd c)) cs).
      { clear -Ex IH. revert xs Ex. induction cs as [|c cs IHc]; intros xs Ex; cbn [map oall] in Ex; [apply some_inj in Ex; subst xs; reflexivity|]. destruct (rewrite1 calc sim r fld fu (snd c)) as [(q', b)|] eqn:E1; [|discriminate]. cbn [obind] in Ex. destruct (oall _) as [ys|] eqn:Ey; [|discriminate]. cbn [obind] in Ex. apply some_inj in Ex. subst xs. inversion IH as [|? ? G1 G2]; subst. cbn [existsb snd]. rewrite (G1 _ _ E1), (IHc G2 _ eq_refl). reflexivity. }
      rewrite E. destruct (barred cs); [destruct (length cs <? MAX_CLAUSES)%nat; [|discriminate]|]; congruence. }
    destruct cs as [|([| |], c) [|c2 cs]]; cbn [single]; try exact G; (destruct (rewrite1 calc sim r fld fu c); [|discriminate]; cbn [obind]; congruence).
Qed.

Lemma comb_ext (a b : list (occur * Prop)) : Forall2 (fun x y => fst x = fst y /\ (snd x <-> snd y)) a b -> comb a <-> comb b.
Proof.
  assert (G : forall a b : list (occur * Prop), Forall2 (fun x y => fst x = fst y /\ (snd x <-> snd y)) a b -> comb a -> comb b).
  { clear. intros a b H2 (H & H0 & H1).
    assert (E : forall y, In y b -> exists x, In x a /\ fst x = fst y /\ (snd x <-> snd y)) by (clear -H2; induction H2 as [|x y a b E HH IH]; intros z Hz; [destruct Hz|]; destruct Hz as [<-|Hz]; [exists x; split; [left; reflexivity|exact E]|destruct (IH z Hz) as (w & Hw & G); exists w; split; [right; exact Hw|exact G]]).
    assert (E' : forall x, In x a -> exists y, In y b /\ fst x = fst y /\ (snd x <-> snd y)) by (clear -H2; induction H2 as [|x y a b E HH IH]; intros z Hz; [destruct Hz|]; destruct Hz as [<-|Hz]; [exists y; split; [left; reflexivity|exact E]|destruct (IH z Hz) as (w & Hw & G); exists w; split; [right; exact Hw|exact G]]).
    unfold comb. splits.
    - intros y Hy Ey. destruct (E y Hy) as (x & Hx & E1 & E2). apply E2, H; congruence.
    - intros y Hy Ey Gy. destruct (E y Hy) as (x & Hx & E1 & E2). apply (H0 x Hx); [congruence|apply E2, Gy].
    - destruct H1 as [(x & Hx & Ex)|[(x & Hx & Ex & Gx)|(N & Hn)]].
      + left. destruct (E' x Hx) as (y & Hy & E1 & E2). exists y. split; congruence.
      + right. left. destruct (E' x Hx) as (y & Hy & E1 & E2). exists y. splits; [exact Hy|congruence|apply E2, Gx].
      + right. right. split; [destruct H2; congruence|]. intros y Hy. destruct (E y Hy) as (x & Hx & E1 & E2). rewrite <- E1. apply Hn. exact Hx. }
  intros H. split; [apply G; exact H|]. apply G. clear -H. induction H as [|x y a b (E1 & E2) HH IH]; constructor; [split; [congruence|tauto]|exact IH].
Qed.
Lemma comb_true (a : list (occur * Prop)) : a <> [] -> (forall x, In x a -> fst x = MustNot) -> comb (a ++ [(Must, True)]) <-> comb a.
Proof.
  intros N H. unfold comb. split.
  - intros (_ & H2 & _). splits; [intros x Hx E; rewrite (H x Hx) in E; discriminate|intros x Hx; apply H2, in_app_iff; auto|right; right; auto].
  - intros (_ & H2 & _). splits.
    + intros x Hx E. apply in_app_iff in Hx. destruct Hx as [Hx|[<-|[]]]; [rewrite (H x Hx) in E; discriminate|exact Logic.I].
    + intros x Hx E. apply in_app_iff in Hx. destruct Hx as [Hx|[<-|[]]]; [apply H2; assumption|discriminate].
    + left. exists (Must, True). split; [apply in_app_iff; right; left; reflexivity|reflexivity].
Qed.
Definition added_one (cs : list (occur * uq)) : bool := barred cs && negb (existsb (fun c : occur * uq => changes (snd c)) cs).
Definition keeps (cs : list (occur * uq)) := map (fun c : occur * uq => (fst c, kept (snd c))) cs.
Lemma kept_bool cs : kept (UBool cs) = if added_one cs then UBool (keeps cs ++ [(Must, UAll)]) else UBool (keeps cs).
Proof. reflexivity. Qed.
Lemma barred_in cs : barred cs = true -> cs <> [] /\ forall c, In c cs -> fst c = MustNot.
Proof.
  unfold barred. intros H. apply andb_true_iff in H. destruct H as (H1 & H2). split; [destruct cs; [discriminate|discriminate]|]. intros c Hc. rewrite forallb_forall in H2. specialize (H2 c Hc). destruct (fst c); try discriminate. reflexivity.
Qed.
Lemma added_in cs : added_one cs = true -> cs <> [] /\ forall c, In c cs -> fst c = MustNot.
Proof. unfold added_one. intros H. apply andb_true_iff in H. apply barred_in, H. Qed.

Lemma kept_sat sim has hasp : forall q, sat sim has hasp (kept q) <-> sat sim has hasp q.
Proof.
  induction q as [q Hq|cs IH] using uq_ind2; [destruct q; cbn [kept]; try reflexivity; destruct (Hq cs eq_refl)|]. rewrite kept_bool.
  assert (E : comb (map (fun c : occur * uq => (fst c, sat sim has hasp (snd c))) (keeps cs)) <-> comb (map (fun c : occur * uq => (fst c, sat sim has hasp (snd c))) cs)).
  { apply comb_ext. unfold keeps. rewrite map_map. induction IH as [|c cs G HH IHc]; [constructor|]. cbn [map]. constructor; [split; [reflexivity|exact G]|exact IHc]. }
  destruct (added_one cs) eqn:Ea; cbn [sat]; [|exact E]. rewrite map_app. cbn [map fst snd sat]. rewrite comb_true; [exact E| |].
  - apply added_in in Ea. unfold keeps. destruct cs; [tauto|discriminate].
  - intros x Hx. unfold keeps in Hx. rewrite map_map in Hx. apply in_map_iff in Hx. destruct Hx as (c & <- & Hc). cbn [fst]. apply (proj2 (added_in cs Ea) c). exact Hc.
Qed.
Lemma keeps_fst cs : map fst (keeps cs) = map fst cs.
Proof. unfold keeps. rewrite map_map. reflexivity. Qed.
Lemma reqs_fst {X} (cs : list (occur * X)) : reqs cs = length (filter (fun o => match o with Must => true | _ => false end) (map fst cs)).
Proof. apply needed_fst. Qed.
Lemma kept_calm : forall q k, calm k (kept q) = calm k q.
Proof.
  induction q as [q Hq|cs IH] using uq_ind2; intros k; [destruct q; cbn [kept]; try reflexivity; destruct (Hq cs eq_refl)|]. rewrite kept_bool.
  assert (G : calm k (UBool (keeps cs)) = calm k (UBool cs)).
  { cbn [calm]. assert (E : reqs (keeps cs) = reqs cs) by (rewrite !reqs_fst, keeps_fst; reflexivity). rewrite E. f_equal. clear E. generalize (reqs cs). intros n. unfold keeps. induction IH as [|c cs G HH IHc]; [reflexivity|]. cbn [map forallb fst snd]. rewrite !G. rewrite IHc. reflexivity. }
  destruct (added_one cs) eqn:Ea; [|exact G]. rewrite <- G. destruct (added_in cs Ea) as (N & HN).
  assert (HN2 : forall c, In c (keeps cs) -> fst c = MustNot) by (intros c Hc; apply in_map_iff in Hc; destruct Hc as (c0 & <- & Hc); cbn [fst]; apply (HN c0); exact Hc).
  generalize dependent (keeps cs). intros l _ HN2. cbn [calm].
  assert (E0 : reqs l = O). { unfold reqs. clear -HN2. induction l as [|c l IH]; [reflexivity|]. cbn [filter]. rewrite (HN2 c (or_introl eq_refl)). apply IH. intros; apply HN2; right; auto. }
  assert (E1 : reqs (l ++ [(Must, UAll)]) = 1%nat). { unfold reqs in *. rewrite filter_app, app_length, E0. reflexivity. }
  rewrite E0, E1. cbn [Nat.leb andb negb]. rewrite forallb_app. cbn [forallb fst snd calm andb]. rewrite andb_true_r. clear -HN2. induction l as [|c l IH]; [reflexivity|]. cbn [forallb]. rewrite (HN2 c (or_introl eq_refl)). f_equal. apply IH. intros; apply HN2; right; auto.
Qed.
Lemma kept_limits calc sim few last ord st mx : forall q, limits calc sim few last ord st mx q -> limits calc sim few last ord st mx (kept q).
Proof.
  induction q as [q Hq|cs IH] using uq_ind2; [destruct q; cbn [kept]; auto; destruct (Hq cs eq_refl)|]. intros HL.
  assert (HC : forall c, In c cs -> limits calc sim few last ord st mx (snd c)). { cbn [limits] in HL. destruct HL as (HL & _). clear -HL. induction cs as [|c cs IH]; intros x Hx; [destruct Hx|]. destruct HL as (H0 & H1). destruct Hx as [<-|Hx]; [exact H0|apply IH; assumption]. }
  assert (H2 : (exists c, In c cs /\ fst c <> MustNot) \/ (length cs < MAX_CLAUSES)%nat) by (cbn [limits] in HL; tauto). clear HL. rewrite Forall_forall in IH.
  assert (G : forall l, (forall c, In c l -> limits calc sim few last ord st mx (snd c)) -> (exists c, In c l /\ fst c <> MustNot) \/ (length l < MAX_CLAUSES)%nat -> limits calc sim few last ord st mx (UBool l)).
  { clear. intros l H H2. cbn [limits]. split; [|exact H2]. clear H2. induction l as [|c l IH]; [exact Logic.I|]. split; [apply H; left; reflexivity|apply IH; intros; apply H; right; auto]. }
  assert (G2 : forall c, In c (keeps cs) -> limits calc sim few last ord st mx (snd c)) by (intros c Hc; apply in_map_iff in Hc; destruct Hc as (c0 & <- & Hc); apply IH; auto).
  rewrite kept_bool. destruct (added_one cs); apply G.
  - intros c Hc. apply in_app_iff in Hc. destruct Hc as [Hc|[<-|[]]]; [auto|exact Logic.I].
  - left. exists (Must, UAll). split; [apply in_app_iff; right; left; reflexivity|discriminate].
  - exact G2.
  - destruct H2 as [(c & Hc & E)|H2]; [left; exists (fst c, kept (snd c)); split; [apply in_map_iff; eauto|exact E]|right; unfold keeps; rewrite map_length; exact H2].
Qed.
Lemma single_keeps cs : single (keeps cs) = single cs.
Proof. destruct cs as [|([| |], c) [|c2 cs]]; reflexivity. Qed.
Lemma kept_changes : forall q, changes (kept q) = changes q.
Proof.
  induction q as [q Hq|cs IH] using uq_ind2; [destruct q; cbn [kept]; try reflexivity; destruct (Hq cs eq_refl)|]. rewrite kept_bool.
  assert (E : existsb (fun c : occur * uq => changes (snd c)) (keeps cs) = existsb (fun c : occur * uq => changes (snd c)) cs) by (unfold keeps; induction IH as [|c cs G HH IHc]; [reflexivity|]; cbn [map existsb snd]; rewrite G, IHc; reflexivity).
  rewrite changes_bool. destruct (added_one cs) eqn:Ea; rewrite changes_bool.
  - rewrite existsb_app, E. cbn [existsb snd changes orb]. rewrite orb_false_r. destruct (added_in cs Ea) as (N & HN).
    replace (single (keeps cs ++ [(Must, UAll)])) with false; [replace (single cs) with false; [reflexivity|]|].
    + destruct cs as [|(o, c) [|c2 cs]]; [congruence|specialize (HN (o, c) (or_introl eq_refl)); cbn [fst] in HN; subst o; reflexivity|destruct o; reflexivity].
    + destruct cs as [|(o, c) [|c2 cs]]; [congruence| |]; cbn; destruct o; reflexivity.
  - rewrite single_keeps, E. reflexivity.
Qed.
Lemma kept_kept : forall q, kept (kept q) = kept q.
Proof.
  induction q as [q Hq|cs IH] using uq_ind2; [destruct q; cbn [kept]; try reflexivity; destruct (Hq cs eq_refl)|].
  assert (EK : keeps (keeps cs) = keeps cs) by (unfold keeps; induction IH as [|c cs G HH IHc]; [reflexivity|]; cbn [map fst snd]; rewrite G, IHc; reflexivity).
  assert (EC : existsb (fun c : occur * uq => changes (snd c)) (keeps cs) = existsb (fun c : occur * uq => changes (snd c)) cs) by (clear; unfold keeps; induction cs as [|c cs IHc]; [reflexivity|]; cbn [map existsb snd]; rewrite kept_changes, IHc; reflexivity).
  assert (EB : barred (keeps cs) = barred cs) by (unfold barred, keeps; rewrite map_length; f_equal; clear; induction cs as [|c cs IHc]; [reflexivity|]; cbn [map forallb fst]; rewrite IHc; reflexivity).
  rewrite kept_bool. destruct (added_one cs) eqn:Ea; rewrite kept_bool.
  - replace (added_one (keeps cs ++ [(Must, UAll)])) with false.
    + unfold keeps at 1. rewrite map_app. cbn [map fst snd kept]. fold (keeps (keeps cs)). rewrite EK. reflexivity.
    + unfold added_one, barred. rewrite forallb_app. cbn [forallb is_not fst]. rewrite andb_false_r, andb_false_r. reflexivity.
  - replace (added_one (keeps cs)) with false; [rewrite EK; reflexivity|]. unfold added_one. rewrite EB, EC. symmetry. exact Ea.
Qed.
