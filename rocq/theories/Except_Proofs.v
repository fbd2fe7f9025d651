(* the machine of contexts and jumps does what is promised, where it does *)
From Verif Require Import Util Except_Model Except_Spec.
Open Scope Z_scope.
Section PROOFS.
  Variable U : Type.
  Definition none (p : option exn) : bool := match p with None => true | Some _ => false end.
  Definition rep (m : mode) (p : option exn) (st : list ctx) : Prop :=
    match st with [] => m = Body /\ p = None | x :: _ => in_fin x = is_final m /\ handled x = none p /\ forall e, p = Some e -> code x = fst e end.
  Definition told (p : option exn) (buf : Z) : Prop := match p with Some e => buf = snd e | None => True end.
  Definition thrown (e : exn) (st : list ctx) (o : out) (st' : list ctx) (buf : Z) : Prop :=
    match st with [] => o = Exit (fst e) buf /\ st' = [] | _ :: t => o = Thrown /\ st' = mkCtx false false (fst e) :: t end.
  Definition Post (m : mode) (st : list ctx) (q : option exn) (lft : bool) (o : out) (st' : list ctx) (buf : Z) : Prop :=
    if lft then exists e, q = Some e /\ m = Body /\ thrown e st o st' buf else o = Next /\ rep m q st' /\ (m = Body -> q = None) /\ tl st' = tl st /\ (st' = [] <-> st = []).
  Definition Ok (s : stmt U) (m : mode) (u : U) (p : option exn) (st : list ctx) (buf : Z) : Prop :=
    match eval (is_final m) s u p with
    | Bad => exists n0, forall n, (n0 <= n)%nat -> exec n s u st buf = Some Stuck
    | R v q lft => exists n0 o st' buf', (forall n, (n0 <= n)%nat -> exec n s u st buf = Some (Res o v st' buf')) /\ (own m s u p -> told p buf -> told q buf') /\ (mute s -> buf' = buf) /\ Post m st q lft o st' buf'
    end.
  Lemma leave m p st (w : U) e buf x : rep m p st -> (m = Body -> p = None) -> (m = Body \/ e = None) -> handled x = none e -> (forall y, e = Some y -> code x = fst y) ->
    exists q lft o st', escape (is_final m) w e p = R w q lft /\ xpop w (x :: st) buf = Res o w st' buf /\ Post m st q lft o st' buf /\ (e = None -> q = p) /\ (p = None -> q = e).
  Proof.
    intros HR HP HM HH HC. unfold escape, xpop. rewrite HH. destruct e as [e|]; cbn [none].
    - destruct HM as [->|HM]; [|discriminate]. cbn [is_final]. specialize (HP eq_refl). subst p. rewrite (HC e eq_refl). destruct st as [|y t].
      + eexists _, _, _, _. split; [reflexivity|]. split; [reflexivity|]. split; [exists e; cbn; auto|]. split; [discriminate|reflexivity].
      + eexists _, _, _, _. split; [reflexivity|]. split; [reflexivity|]. destruct HR as (F & _). split; [exists e; cbn; unfold jump; rewrite F; auto|]. split; [discriminate|reflexivity].
    - eexists _, _, _, _. split; [reflexivity|]. split; [reflexivity|]. split; [cbn; tauto|]. split; [reflexivity|auto].
  Qed.
  Ltac fuel n := destruct n as [|n]; [lia|]; cbn [exec].
  Lemma push_rep st : rep Body None (push st).
  Proof. cbn. split; [reflexivity|]. split; [reflexivity|discriminate]. Qed.
  (* a block after XFINALLY or XCATCHALL, with an exception on its way or none *)
  Lemma block_ok (f : stmt U) m p st v e x buf : (forall st' buf', rep Final e st' -> Ok f Final v e st' buf') -> rep m p st -> (m = Body -> p = None) -> handled x = none e -> (forall y, e = Some y -> code x = fst y) ->
    match eval true f v e with
    | Bad => exists n0, forall n, (n0 <= n)%nat -> block n f v (x :: st) buf = Some Stuck
    | R w e' _ => (m = Body \/ e' = None) -> exists n0 q lft o st' buf', escape (is_final m) w e' p = R w q lft /\ (forall n, (n0 <= n)%nat -> block n f v (x :: st) buf = Some (Res o w st' buf')) /\
        (own Final f v e -> told e buf -> told e' buf') /\ (mute f -> buf' = buf) /\ Post m st q lft o st' buf' /\ (e' = None -> q = p) /\ (p = None -> q = e')
    end.
  Proof.
    intros HF HR HP HH HC. assert (HR' : rep Final e (set_fin (x :: st))) by (cbn; auto). pose proof (HF _ buf HR') as G. unfold Ok in G. cbn [is_final] in G. destruct (eval true f v e) as [|w e' l].
    - destruct G as (n0 & G). exists (S n0). intros n Hn. destruct n as [|n]; [lia|]. cbn [block]. rewrite G by lia. reflexivity.
    - intros HM. destruct G as (n0 & o & st' & buf' & G1 & G2 & G3 & G4). unfold Post in G4. destruct l; [destruct G4 as (y & _ & D & _); discriminate|]. destruct G4 as (-> & R1 & _ & T1 & T2). destruct st' as [|x' st']; [exfalso; destruct T2 as [T2 _]; specialize (T2 eq_refl); discriminate|]. cbn [tl set_fin] in T1. subst st'. destruct R1 as (_ & R2 & R3).
      destruct (leave m p st w e' buf' x' HR HP HM R2 R3) as (q & l & o & st' & L1 & L2 & L3 & L4 & L5). exists (S n0), q, l, o, st', buf'. split; [exact L1|]. split; [|auto].
      intros n Hn. destruct n as [|n]; [lia|]. cbn [block]. rewrite G1 by lia. rewrite L2. reflexivity.
  Qed.
  (* the cases *)
  Lemma switch_ok has (h : Z -> stmt U) m p st v y x buf : (has (fst y) = true -> forall st' buf', rep Hand (Some y) st' -> Ok (h (fst y)) Hand v (Some y) st' buf') -> rep m p st -> (m = Body -> p = None) -> handled x = false -> in_fin x = false -> code x = fst y ->
    match (if has (fst y) then eval false (h (fst y)) v (Some y) else R v (Some y) false) with
    | Bad => exists n0, forall n, (n0 <= n)%nat -> switch n has h v (x :: st) buf = Some Stuck
    | R w e' _ => (m = Body \/ e' = None) -> exists n0 q lft o st' buf', escape (is_final m) w e' p = R w q lft /\ (forall n, (n0 <= n)%nat -> switch n has h v (x :: st) buf = Some (Res o w st' buf')) /\
        ((has (fst y) = true -> own Hand (h (fst y)) v (Some y)) -> told (Some y) buf -> told e' buf') /\ ((forall c, mute (h c)) -> buf' = buf) /\ Post m st q lft o st' buf' /\ (e' = None -> q = p) /\ (p = None -> q = e')
    end.
  Proof.
    intros HF HR HP HH HN HC. destruct (has (fst y)) eqn:EH.
    - assert (HR' : rep Hand (Some y) (x :: st)) by (cbn; split; [exact HN|]; split; [exact HH|]; intros e E; apply some_inj in E; subst e; exact HC). pose proof (HF eq_refl _ buf HR') as G. unfold Ok in G. cbn [is_final] in G. destruct (eval false (h (fst y)) v (Some y)) as [|w e' l].
      + destruct G as (n0 & G). exists (S n0). intros n Hn. destruct n as [|n]; [lia|]. cbn [switch top_code]. rewrite HC, EH, G by lia. reflexivity.
      + intros HM. destruct G as (n0 & o & st' & buf' & G1 & G2 & G3 & G4). unfold Post in G4. destruct l; [destruct G4 as (z & _ & D & _); discriminate|]. destruct G4 as (-> & R1 & _ & T1 & T2). destruct st' as [|x' st']; [exfalso; destruct T2 as [T2 _]; specialize (T2 eq_refl); discriminate|]. cbn [tl] in T1. subst st'. destruct R1 as (_ & R2 & R3).
        destruct (leave m p st w e' buf' x' HR HP HM R2 R3) as (q & l & o & st' & L1 & L2 & L3 & L4 & L5). exists (S n0), q, l, o, st', buf'. split; [exact L1|]. split; [|auto 8].
        intros n Hn. destruct n as [|n]; [lia|]. cbn [switch top_code]. rewrite HC, EH, G1 by lia. rewrite L2. reflexivity.
    - intros HM. destruct (leave m p st v (Some y) buf x HR HP HM HH ltac:(intros e E; apply some_inj in E; subst e; exact HC)) as (q & l & o & st' & L1 & L2 & L3 & L4 & L5). exists 1%nat, q, l, o, st', buf. split; [exact L1|]. split; [|auto 8].
      intros n Hn. destruct n as [|n]; [lia|]. cbn [switch top_code]. rewrite HC, EH, L2. reflexivity.
  Qed.
  (* what a body does: it ends or throws to its context *)
  Lemma body_ok (b : stmt U) u st buf : (forall st' buf', rep Body None st' -> Ok b Body u None st' buf') ->
    match eval false b u None with
    | Bad => exists n0, forall n, (n0 <= n)%nat -> exec n b u (push st) buf = Some Stuck
    | R v e l => exists n0 o x buf', (forall n, (n0 <= n)%nat -> exec n b u (push st) buf = Some (Res o v (x :: st) buf')) /\ (own Body b u None -> told e buf') /\ (mute b -> buf' = buf) /\
        handled x = none e /\ (forall y, e = Some y -> code x = fst y) /\ in_fin x = false /\ match e with None => o = Next | Some _ => o = Thrown end
    end.
  Proof.
    intros HB. pose proof (HB _ buf (push_rep st)) as G. unfold Ok in G. cbn [is_final] in G. destruct (eval false b u None) as [|v e l]; [exact G|]. destruct G as (n0 & o & st' & buf' & G1 & G2 & G3 & G4). unfold Post in G4. destruct l.
    - destruct G4 as (y & -> & _ & T). cbn in T. destruct T as (-> & ->). exists n0, Thrown, (mkCtx false false (fst y)), buf'. split; [exact G1|]. split; [intros Q; exact (G2 Q Logic.I)|]. split; [exact G3|]. cbn. split; [reflexivity|]. split; [intros z E; apply some_inj in E; subst z; reflexivity|auto].
    - destruct G4 as (-> & R1 & RB & T1 & T2). rewrite (RB eq_refl) in *. destruct st' as [|x' st']; [exfalso; destruct T2 as [T2 _]; specialize (T2 eq_refl); discriminate|]. cbn [tl push] in T1. subst st'. destruct R1 as (F & R2 & R3). exists n0, Next, x', buf'. split; [exact G1|]. split; [intros _; exact Logic.I|]. auto.
  Qed.
  Lemma tame_none m (w : U) e l : (match m with Body => True | _ => quiet (R w e l) end) -> m = Body \/ e = None.
  Proof. destruct m; [auto| |]; destruct e; cbn; [tauto|auto|tauto|auto]. Qed.
  Theorem exec_ok s : forall m u p, calm m s u p -> forall st buf, rep m p st -> (m = Body -> p = None) -> Ok s m u p st buf.
  Proof.
    induction s as [f|g|a IHa b IHb| |b IHb f IHf|b IHb h IHh|b IHb has h IHh|b IHb has h IHh f IHf]; intros m u p HC st buf HR HP; unfold Ok; cbn [eval calm own mute] in *.
    - destruct (f u) as [v|] eqn:E; [|exists 1%nat; intros n Hn; fuel n; rewrite E; reflexivity]. exists 1%nat, Next, st, buf. split; [intros n Hn; fuel n; rewrite E; reflexivity|]. split; [auto|]. split; [auto|]. cbn. tauto.
    - destruct (g u) as [(c, t)|] eqn:E; unfold escape.
      + destruct m; [|discriminate|]; cbn [is_final].
        * rewrite (HP eq_refl) in *. destruct st as [|x st].
          -- exists 1%nat, (Exit c t), [], t. split; [intros n Hn; fuel n; rewrite E; reflexivity|]. split; [intros _ _; reflexivity|]. split; [tauto|]. exists (c, t). cbn. auto.
          -- destruct HR as (F & _). cbn [is_final] in F. exists 1%nat, Thrown, (mkCtx false false c :: st), t. split; [intros n Hn; fuel n; rewrite E; unfold xraise; rewrite F; cbn; unfold jump; rewrite F; reflexivity|]. split; [intros _ _; reflexivity|]. split; [tauto|]. exists (c, t). cbn. auto.
        * destruct st as [|x st]; [destruct HR as (D & _); discriminate|]. destruct HR as (F & R2 & R3). cbn [is_final] in F. destruct p as [e|]; cbn [first none] in *.
          -- exists 1%nat, Next, (x :: st), t. split; [intros n Hn; fuel n; rewrite E; unfold xraise; rewrite F, R2; reflexivity|]. split; [intros [D|D]; discriminate|]. split; [tauto|]. cbn. repeat split; auto; discriminate.
          -- exists 1%nat, Next, (mkCtx false true c :: st), t. split; [intros n Hn; fuel n; rewrite E; unfold xraise; rewrite F, R2; reflexivity|]. split; [intros _ _; reflexivity|]. split; [tauto|]. cbn. repeat split; auto; try discriminate. intros e G. apply some_inj in G. subst e. reflexivity.
      + exists 1%nat, Next, st, buf. split; [intros n Hn; fuel n; rewrite E; reflexivity|]. split; [auto|]. split; [auto|]. cbn. tauto.
    - destruct HC as (H1 & H2). pose proof (IHa m u p H1 st buf HR HP) as G. unfold Ok in G. destruct (eval (is_final m) a u p) as [|v q l].
      + destruct G as (n0 & G). exists (S n0). intros n Hn. fuel n. rewrite G by lia. reflexivity.
      + destruct G as (n0 & o & st1 & buf1 & G1 & G2 & G3 & G4). unfold Post in G4. destruct l.
        * exists (S n0), o, st1, buf1. split; [intros n Hn; fuel n; rewrite G1 by lia; destruct G4 as (e & _ & _ & T); destruct st; destruct T as (-> & _); reflexivity|]. split; [intros (Q & _); auto|]. split; [intros (Q & _); auto|]. exact G4.
        * destruct G4 as (-> & R1 & RB & T1 & T2). pose proof (IHb m v q H2 st1 buf1 R1 RB) as K. unfold Ok in K. destruct (eval (is_final m) b v q) as [|w r l].
          -- destruct K as (n1 & K). exists (S (n0 + n1)). intros n Hn. fuel n. rewrite G1 by lia. apply K. lia.
          -- destruct K as (n1 & o & st2 & buf2 & K1 & K2 & K3 & K4). exists (S (n0 + n1)), o, st2, buf2. split; [intros n Hn; fuel n; rewrite G1 by lia; apply K1; lia|]. split; [intros (Q1 & Q2) T; apply K2; [exact Q2|apply G2; [exact Q1|exact T]]|]. split; [intros (Q1 & Q2); rewrite K3, G3; auto|].
             unfold Post in *. destruct l.
             ++ destruct K4 as (e & E1 & E2 & E3). exists e. split; [exact E1|]. split; [exact E2|]. unfold thrown in *. destruct st1 as [|x1 t1], st as [|x t]; cbn [tl] in T1; try (subst t1); try exact E3; exfalso; destruct T2 as [T3 T4]; [specialize (T3 eq_refl)|specialize (T4 eq_refl)]; discriminate.
             ++ destruct K4 as (E1 & E2 & E3 & E4 & E5). split; [exact E1|]. split; [exact E2|]. split; [exact E3|]. split; [congruence|tauto].
    - exists 1%nat, Next, (set_handled st), buf. split; [intros n Hn; fuel n; reflexivity|]. split; [intros _ _; exact Logic.I|]. split; [auto|]. cbn. split; [reflexivity|]. split; [destruct st as [|x t]; [split; [apply HR|reflexivity]|destruct HR as (F & _); cbn; repeat split; auto; discriminate]|]. split; [auto|]. split; [destruct st; reflexivity|]. destruct st; cbn; split; auto; discriminate.
    - destruct HC as (H1 & H2 & H3). pose proof (body_ok b u st buf (fun st' buf' R1 => IHb Body u None H1 st' buf' R1 (fun _ => eq_refl))) as G. destruct (eval false b u None) as [|v e l].
      + destruct G as (n0 & G). exists (S n0). intros n Hn. fuel n. rewrite G by lia. reflexivity.
      + destruct G as (n0 & o & x & buf1 & G1 & G2 & G3 & G4 & G5 & G6 & G7). pose proof (block_ok f m p st v e x buf1 (fun st' buf' R1 => IHf Final v e H2 st' buf' R1 ltac:(discriminate)) HR HP G4 G5) as K.
        assert (EX : forall n r, (n0 <= n)%nat -> block n f v (x :: st) buf1 = r -> exec (S n) (Fin b f) u st buf = r) by (intros n r Hn E; cbn [exec]; rewrite G1 by lia; destruct e; rewrite G7; exact E).
        destruct (eval true f v e) as [|w e' l'].
        * destruct K as (n1 & K). exists (S (n0 + n1)). intros n Hn. destruct n as [|n]; [lia|]. apply EX; [lia|]. apply K. lia.
        * assert (HM : m = Body \/ e' = None) by (apply (tame_none m w e' true); destruct m; [exact Logic.I| |]; unfold escape in H3; destruct e'; exact H3).
          destruct (K HM) as (n1 & q & l2 & o2 & st2 & buf2 & E1 & K1 & K2 & K3 & K4 & K5 & K6). rewrite E1. exists (S (n0 + n1)), o2, st2, buf2. split; [intros n Hn; destruct n as [|n]; [lia|]; apply EX; [lia|]; apply K1; lia|]. split; [|split; [intros (Q1 & Q2); rewrite K3, G3; auto|exact K4]].
          intros (Q1 & Q2 & Q3) T. destruct Q1 as [Q1|(Q1 & Q4)]; [rewrite (K6 Q1); apply K2; [exact Q3|apply G2; exact Q2]|]. destruct HM as [HM|HM]; [rewrite (K6 (HP HM)); apply K2; [exact Q3|apply G2; exact Q2]|]. rewrite (K5 HM), K3, G3; auto.
    - destruct HC as (H1 & H2 & H3). pose proof (body_ok b u st buf (fun st' buf' R1 => IHb Body u None H1 st' buf' R1 (fun _ => eq_refl))) as G. destruct (eval false b u None) as [|v e l].
      + destruct G as (n0 & G). exists (S n0). intros n Hn. fuel n. rewrite G by lia. reflexivity.
      + destruct G as (n0 & o & x & buf1 & G1 & G2 & G3 & G4 & G5 & G6 & G7). destruct e as [y|].
        * pose proof (block_ok h m p st v (Some y) x buf1 (fun st' buf' R1 => IHh Final v (Some y) H2 st' buf' R1 ltac:(discriminate)) HR HP G4 G5) as K. subst o.
          assert (EX : forall n r, (n0 <= n)%nat -> block n h v (x :: st) buf1 = r -> exec (S n) (Catch b h) u st buf = r) by (intros n r Hn E; cbn [exec]; rewrite G1 by lia; exact E).
          destruct (eval true h v (Some y)) as [|w e' l'].
          -- destruct K as (n1 & K). exists (S (n0 + n1)). intros n Hn. destruct n as [|n]; [lia|]. apply EX; [lia|]. apply K. lia.
          -- assert (HM : m = Body \/ e' = None) by (apply (tame_none m w e' true); destruct m; [exact Logic.I| |]; unfold escape in H3; destruct e'; exact H3).
             destruct (K HM) as (n1 & q & l2 & o2 & st2 & buf2 & E1 & K1 & K2 & K3 & K4 & K5 & K6). rewrite E1. exists (S (n0 + n1)), o2, st2, buf2. split; [intros n Hn; destruct n as [|n]; [lia|]; apply EX; [lia|]; apply K1; lia|]. split; [|split; [intros (Q1 & Q2); rewrite K3, G3; auto|exact K4]].
             intros (Q1 & Q2 & Q3) T. destruct Q1 as [Q1|(Q1 & Q4)]; [rewrite (K6 Q1); apply K2; [exact Q3|apply G2; exact Q2]|]. destruct HM as [HM|HM]; [rewrite (K6 (HP HM)); apply K2; [exact Q3|apply G2; exact Q2]|]. rewrite (K5 HM), K3, G3; auto.
        * subst o. destruct (leave m p st v None buf1 x HR HP (or_intror eq_refl) G4 G5) as (q & l2 & o2 & st2 & L1 & L2 & L3 & L4 & L5). cbn in L1. injection L1 as L1a L1b. subst q l2. exists (S n0), o2, st2, buf1. split; [intros n Hn; fuel n; rewrite G1 by lia; rewrite L2; reflexivity|].
          split; [intros (Q1 & Q2 & Q3) T; destruct Q1 as [->|(Q1 & Q4)]; [exact Logic.I|rewrite G3; auto]|]. split; [intros (Q1 & Q2); auto|exact L3].
    - destruct HC as (H1 & H2 & H3). pose proof (body_ok b u st buf (fun st' buf' R1 => IHb Body u None H1 st' buf' R1 (fun _ => eq_refl))) as G. destruct (eval false b u None) as [|v e l].
      + destruct G as (n0 & G). exists (S n0). intros n Hn. fuel n. rewrite G by lia. reflexivity.
      + destruct G as (n0 & o & x & buf1 & G1 & G2 & G3 & G4 & G5 & G6 & G7). destruct e as [y|].
        * pose proof (switch_ok has h m p st v y x buf1 (fun EH st' buf' R1 => IHh (fst y) Hand v (Some y) (H2 EH) st' buf' R1 ltac:(discriminate)) HR HP G4 G6 (G5 y eq_refl)) as K. subst o.
          assert (EX : forall n r, (n0 <= n)%nat -> switch n has h v (x :: st) buf1 = r -> exec (S n) (Cases b has h) u st buf = r) by (intros n r Hn E; cbn [exec]; rewrite G1 by lia; exact E).
          unfold exn in *. destruct (has (fst y)) eqn:EH; [destruct (eval false (h (fst y)) v (Some y)) as [|w e' l'] eqn:EV|]; cbv iota in K, H3.
          -- destruct K as (n1 & K). exists (S (n0 + n1)). intros n Hn. destruct n as [|n]; [lia|]. apply EX; [lia|]. apply K. lia.
          -- assert (HM : m = Body \/ e' = None) by (apply (tame_none m w e' true); destruct m; [exact Logic.I| |]; unfold escape in H3; destruct e'; exact H3). destruct (K HM) as (n1 & q & l2 & o2 & st2 & buf2 & E1 & K1 & K2 & K3 & K4 & K5 & K6). rewrite E1. exists (S (n0 + n1)), o2, st2, buf2. split; [intros n Hn; destruct n as [|n]; [lia|]; apply EX; [lia|]; apply K1; lia|]. split; [|split; [intros (Q1 & Q2); rewrite K3, G3; auto|exact K4]].
             intros (Q1 & Q2 & Q3) T. destruct Q1 as [Q1|(Q1 & Q4)]; [rewrite (K6 Q1); apply K2; [exact Q3|apply G2; exact Q2]|]. destruct HM as [HM|HM]; [rewrite (K6 (HP HM)); apply K2; [exact Q3|apply G2; exact Q2]|]. rewrite (K5 HM), K3, G3; auto.
          -- assert (HM : m = Body \/ Some y = None) by (apply (tame_none m v (Some y) true); destruct m; [exact Logic.I| |]; exact H3). destruct (K HM) as (n1 & q & l2 & o2 & st2 & buf2 & E1 & K1 & K2 & K3 & K4 & K5 & K6). rewrite E1. exists (S (n0 + n1)), o2, st2, buf2. split; [intros n Hn; destruct n as [|n]; [lia|]; apply EX; [lia|]; apply K1; lia|]. split; [|split; [intros (Q1 & Q2); rewrite K3, G3; auto|exact K4]].
             intros (Q1 & Q2 & Q3) T. destruct Q1 as [Q1|(Q1 & Q4)]; [rewrite (K6 Q1); apply K2; [exact Q3|apply G2; exact Q2]|]. destruct HM as [HM|HM]; [rewrite (K6 (HP HM)); apply K2; [exact Q3|apply G2; exact Q2]|]. rewrite (K5 HM), K3, G3; auto.
        * subst o. destruct (leave m p st v None buf1 x HR HP (or_intror eq_refl) G4 G5) as (q & l2 & o2 & st2 & L1 & L2 & L3 & L4 & L5). cbn in L1. injection L1 as L1a L1b. subst q l2. exists (S n0), o2, st2, buf1. split; [intros n Hn; fuel n; rewrite G1 by lia; rewrite L2; reflexivity|].
          split; [intros (Q1 & Q2 & Q3) T; destruct Q1 as [->|(Q1 & Q4)]; [exact Logic.I|rewrite G3; auto]|]. split; [intros (Q1 & Q2); auto|exact L3].
    - (* FINALLY *)
      destruct HC as (H1 & H2). pose proof (body_ok b u st buf (fun st' buf' R1 => IHb Body u None H1 st' buf' R1 (fun _ => eq_refl))) as G. destruct (eval false b u None) as [|v e l].
      + destruct G as (n0 & G). exists (S n0). intros n Hn. fuel n. rewrite G by lia. reflexivity.
      + destruct G as (n0 & o & x & buf1 & G1 & G2 & G3 & G4 & G5 & G6 & G7).
        assert (FF : forall w st1 buf2 nn, calm m f w p -> rep m p st1 -> tl st1 = tl st -> (st1 = [] <-> st = []) -> (forall n, (nn <= n)%nat -> exec (S n) (CasesFin b has h f) u st buf = exec n f w st1 buf2) ->
          forall ownf : Prop, (ownf -> own m f w p) -> (ownf -> told p buf -> told p buf2) -> (mute b /\ (forall c, mute (h c)) /\ mute f -> buf2 = buf) ->
          match (match eval (is_final m) f w p with Bad => Bad | R z q true => R z q true | R z q false => escape (is_final m) z None q end) with
          | Bad => exists n0, forall n, (n0 <= n)%nat -> exec n (CasesFin b has h f) u st buf = Some Stuck
          | R v q lft => exists n0 o st' buf', (forall n, (n0 <= n)%nat -> exec n (CasesFin b has h f) u st buf = Some (Res o v st' buf')) /\ (ownf -> told p buf -> told q buf') /\ (mute b /\ (forall c, mute (h c)) /\ mute f -> buf' = buf) /\ Post m st q lft o st' buf'
          end).
        { intros w st1 buf2 nn CF RF TF TF2 EX ownf OF1 OF2 MF. pose proof (IHf m w p CF st1 buf2 RF HP) as K. unfold Ok in K. destruct (eval (is_final m) f w p) as [|z q l'].
          - destruct K as (n1 & K). exists (S (nn + n1)). intros n Hn. destruct n as [|n]; [lia|]. rewrite EX by lia. apply K. lia.
          - destruct K as (n1 & o3 & st3 & buf3 & K1 & K2 & K3 & K4).
            assert (EQ : (if l' then R z q true else escape (is_final m) z None q) = R z q l') by (destruct l'; reflexivity). rewrite EQ. exists (S (nn + n1)), o3, st3, buf3. split; [intros n Hn; destruct n as [|n]; [lia|]; rewrite EX by lia; apply K1; lia|]. split; [auto|]. split; [intros Q; rewrite K3 by tauto; auto|].
            unfold Post in *. destruct l'.
            + destruct K4 as (e1 & E1 & E2 & E3). exists e1. split; [exact E1|]. split; [exact E2|]. unfold thrown in *. destruct st1 as [|x1 t1], st as [|x0 t]; cbn [tl] in TF; try (subst t1); try exact E3; exfalso; destruct TF2 as [T3 T4]; [specialize (T3 eq_refl)|specialize (T4 eq_refl)]; discriminate.
            + destruct K4 as (E1 & E2 & E3 & E4 & E5). split; [exact E1|]. split; [exact E2|]. split; [exact E3|]. split; [congruence|tauto]. }
        destruct e as [y|].
        * destruct H2 as (EH & H2 & H4). rewrite EH. subst o. pose proof (switch_ok has h m p st v y x buf1 (fun EH st' buf' R1 => IHh (fst y) Hand v (Some y) H2 st' buf' R1 ltac:(discriminate)) HR HP G4 G6 (G5 y eq_refl)) as K. rewrite EH in K. unfold exn in *. destruct (eval false (h (fst y)) v (Some y)) as [|w e' l'].
          -- destruct K as (n1 & K). exists (S (n0 + n1)). intros n Hn. fuel n. rewrite G1 by lia. rewrite K by lia. reflexivity.
          -- destruct H4 as (-> & CF). destruct (K (or_intror eq_refl)) as (n1 & q & l2 & o2 & st2 & buf2 & E1 & K1 & K2 & K3 & K4 & K5 & K6). cbn in E1. injection E1 as E1a E1b. subst q l2. destruct K4 as (-> & P1 & P2 & P3 & P4).
             apply (FF w st2 buf2 (n0 + n1)%nat CF P1 P3 P4); [intros n Hn; cbn [exec]; rewrite G1 by lia; rewrite K1 by lia; reflexivity|tauto| |intros (Q1 & Q2 & Q3); rewrite K3, G3; auto].
             intros (Q1 & Q2 & Q3 & Q4) T. destruct Q1 as [->|(Q1 & Q5 & Q6)]; [exact Logic.I|rewrite K3, G3; auto].
        * subst o. destruct (leave m p st v None buf1 x HR HP (or_intror eq_refl) G4 G5) as (q & l2 & o2 & st2 & L1 & L2 & L3 & L4 & L5). cbn in L1. injection L1 as L1a L1b. subst q l2. destruct L3 as (-> & P1 & P2 & P3 & P4).
          apply (FF v st2 buf1 n0 H2 P1 P3 P4); [intros n Hn; cbn [exec]; rewrite G1 by lia; rewrite L2; reflexivity|tauto| |intros (Q1 & Q2 & Q3); auto].
          intros (Q1 & Q2 & Q3) T. destruct Q1 as [->|(Q1 & Q5 & Q6)]; [exact Logic.I|rewrite G3; auto].
  Qed.
End PROOFS.
(* outside of any TRY *)
Theorem outside U (s : stmt U) u buf : calm Body s u None ->
  match eval false s u None with
  | Bad => exists n0, forall n, (n0 <= n)%nat -> exec n s u [] buf = Some Stuck
  | R v None _ => exists n0 buf', forall n, (n0 <= n)%nat -> exec n s u [] buf = Some (Res Next v [] buf')
  | R v (Some e) _ => exists n0 m, (forall n, (n0 <= n)%nat -> exec n s u [] buf = Some (Res (Exit (fst e) m) v [] m)) /\ (own Body s u None -> m = snd e)
  end.
Proof.
  intros HC. pose proof (exec_ok U s Body u None HC [] buf ltac:(cbn; auto) ltac:(auto)) as G. unfold Ok in G. cbn [is_final] in G. destruct (eval false s u None) as [|v q l]; [exact G|]. destruct G as (n0 & o & st' & buf' & G1 & G2 & G3 & G4). unfold Post in G4. destruct l.
  - destruct G4 as (e & -> & _ & -> & ->). exists n0, buf'. split; [exact G1|]. intros Q. exact (G2 Q Logic.I).
  - destruct G4 as (-> & _ & Q & _ & T). specialize (Q eq_refl). subst q. destruct T as [_ T]. rewrite (T eq_refl) in G1. eauto.
Qed.
Section STEPS.
  Variable U : Type.
  Lemma ex_do n (f : U -> option U) u st b : exec (S n) (Do f) u st b = Some (match f u with None => Stuck | Some v => Res Next v st b end). Proof. reflexivity. Qed.
  Lemma ex_raise n (g : U -> option exn) u st b : exec (S n) (Raise g) u st b = Some (match g u with None => Res Next u st b | Some (c, m) => let r := xraise c m st in Res (fst r) u (snd r) m end). Proof. reflexivity. Qed.
  Lemma ex_handled n (u : U) st b : exec (S n) Handled u st b = Some (Res Next u (set_handled st) b). Proof. reflexivity. Qed.
  Lemma ex_seq n (a b : stmt U) u st buf : exec (S n) (Seq a b) u st buf = match exec n a u st buf with Some (Res Next v st' buf') => exec n b v st' buf' | r => r end. Proof. reflexivity. Qed.
  Lemma ex_fin n (b f : stmt U) u st buf : exec (S n) (Fin b f) u st buf = match exec n b u (push st) buf with Some (Res (Exit c m) v st' buf') => Some (Res (Exit c m) v st' buf') | Some (Res _ v st' buf') => block n f v st' buf' | r => r end. Proof. reflexivity. Qed.
  Lemma ex_catch n (b h : stmt U) u st buf : exec (S n) (Catch b h) u st buf = match exec n b u (push st) buf with Some (Res Next v st' buf') => Some (xpop v st' buf') | Some (Res Thrown v st' buf') => block n h v st' buf' | r => r end. Proof. reflexivity. Qed.
  Lemma ex_cases n (b : stmt U) has h u st buf : exec (S n) (Cases b has h) u st buf = match exec n b u (push st) buf with Some (Res Next v st' buf') => Some (xpop v st' buf') | Some (Res Thrown v st' buf') => switch n has h v st' buf' | r => r end. Proof. reflexivity. Qed.
  Lemma bl_step n (f : stmt U) u st buf : block (S n) f u st buf = match exec n f u (set_fin st) buf with Some (Res Next v st' buf') => Some (xpop v st' buf') | Some (Res Thrown v st' buf') => block n f v st' buf' | r => r end. Proof. reflexivity. Qed.
  Lemma sw_step n has (h : Z -> stmt U) u st buf : switch (S n) has h u st buf =
    if has (top_code st) then match exec n (h (top_code st)) u st buf with Some (Res Next v st' buf') => Some (xpop v st' buf') | Some (Res Thrown v st' buf') => switch n has h v st' buf' | r => r end else Some (xpop u st buf). Proof. reflexivity. Qed.
End STEPS.
Section WRONG.
  Variable U : Type.
  Variables (e1 e2 : exn) (g h : U -> option U).
  Definition twice : stmt U := Fin (Raise (fun _ => Some e1)) (Seq (Do g) (Fin (Raise (fun _ => Some e2)) (Do h))).
  Hypotheses (Hg : forall u, g u <> None) (Hh : forall u, h u <> None).
  Lemma nested_block : forall n u x st buf, block n (Seq (Do g) (Fin (Raise (fun _ => Some e2)) (Do h))) u (x :: st) buf = None.
  Proof.
    induction n as [n IH] using (well_founded_induction Nat.lt_wf_0). intros u x st buf. destruct n as [|n]; [reflexivity|]. rewrite bl_step. destruct n as [|n]; [reflexivity|]. rewrite ex_seq. destruct n as [|n]; [reflexivity|]. rewrite ex_do. destruct (g u) as [v|] eqn:E; [|destruct (Hg u E)].
    rewrite ex_fin. destruct n as [|n]; [reflexivity|]. rewrite ex_raise. destruct e2 as (c, m). unfold push, xraise. cbn [in_fin negb fst snd]. rewrite bl_step. destruct n as [|n]; [reflexivity|]. rewrite ex_do. destruct (h v) as [w|] eqn:E'; [|destruct (Hh v E')]. cbn [jump set_fin xpop handled code in_fin]. apply IH. lia.
  Qed.
  Lemma nested_ever n u buf : exec n twice u [] buf = None.
  Proof. destruct n as [|n]; [reflexivity|]. unfold twice. rewrite ex_fin. destruct n as [|n]; [reflexivity|]. rewrite ex_raise. destruct e1 as (c, m). unfold push, xraise. cbn [in_fin negb fst snd]. apply nested_block. Qed.
End WRONG.
Lemma handler_switch U (c : Z) (m : Z) : forall n (u : U) x st buf, in_fin x = false -> code x = c -> switch n (fun k => k =? c) (fun _ => Seq Handled (Raise (fun _ => Some (c, m)))) u (x :: st) buf = None.
Proof.
  induction n as [n IH] using (well_founded_induction Nat.lt_wf_0). intros u x st buf F E. destruct n as [|n]; [reflexivity|]. rewrite sw_step. cbn [top_code]. rewrite E, Z.eqb_refl. destruct n as [|n]; [reflexivity|]. rewrite ex_seq. destruct n as [|n]; [reflexivity|]. rewrite ex_handled, ex_raise. cbn [set_handled xraise in_fin]. rewrite F. cbn [negb fst snd]. apply IH; [lia|reflexivity|reflexivity].
Qed.
Lemma handler_ever U c m m' n (u : U) buf : exec n (Cases (Raise (fun _ => Some (c, m))) (fun k => k =? c) (fun _ => Seq Handled (Raise (fun _ => Some (c, m'))))) u [] buf = None.
Proof. destruct n as [|n]; [reflexivity|]. rewrite ex_cases. destruct n as [|n]; [reflexivity|]. rewrite ex_raise. cbn [xraise push in_fin negb fst snd]. apply handler_switch; reflexivity. Qed.
(* ---------- sis_write *)
Lemma live_out l n : Forall (fun h => (h < n)%nat) l -> filter (fun x => negb (Nat.eqb n x)) (n :: l) = l.
Proof.
  intros H. cbn [filter]. rewrite Nat.eqb_refl. cbn [negb]. induction H as [|a l Ha H IH]; [reflexivity|]. cbn [filter]. destruct (Nat.eqb_spec n a); [lia|]. cbn [negb]. rewrite IH. reflexivity.
Qed.
Ltac steps HE HL2 HL3 HA := repeat first [rewrite ex_seq|rewrite ex_fin|rewrite ex_catch|rewrite ex_do|rewrite ex_raise|rewrite ex_handled|rewrite bl_step|progress cbn [xraise push in_fin negb fst snd jump handled code set_fin set_handled obind d_os d_live d_next d_names d_pending xpop]|rewrite HE|rewrite HL2|rewrite HL3|rewrite HA].
Lemma sis_write_ok (write1 write2 remove : bool) new gen old d buf : d_os d = None -> Forall (fun h => (h < d_next d)%nat) (d_live d) -> (remove = true -> ~ In old (d_names d) /\ old <> new /\ old <> gen) ->
  exists n0 o d' buf', (forall n, (n0 <= n)%nat -> exec n (sis_write false write1 false write2 remove new gen old) d [] buf = Some (Res o d' [] buf')) /\ d_live d' = d_live d /\
    if write1 then o = Exit IO_ERROR new /\ d_names d' = new :: d_names d else o = Next /\ (forall x, In x (d_names d') <-> (x = new \/ x = gen \/ In x (d_names d)) /\ x <> old).
Proof.
  intros HO HL HR. exists 9%nat. assert (HE : forall (l : list nat) k, existsb (Nat.eqb k) (k :: l) = true) by (intros l k; cbn; rewrite Nat.eqb_refl; reflexivity).
  assert (HX : remove = true -> existsb (Z.eqb old) (gen :: new :: d_names d) = false).
  { intros E. destruct (HR E) as (H1 & H2 & H3). cbn [existsb]. destruct (Z.eqb_spec old gen); [contradiction|]. destruct (Z.eqb_spec old new); [contradiction|]. cbn [orb]. destruct (existsb (Z.eqb old) (d_names d)) eqn:EX; [|reflexivity]. apply existsb_exists in EX. destruct EX as (z & Z1 & Z2). apply Z.eqb_eq in Z2. subst z. contradiction. }
  assert (HA : existsb (Z.eqb old) (gen :: new :: d_names d) && remove = false) by (destruct remove; [rewrite HX by reflexivity; reflexivity|apply andb_false_r]).
  assert (HL2 : filter (fun x => negb (Nat.eqb (d_next d) x)) (d_next d :: d_live d) = d_live d) by (apply live_out; exact HL).
  assert (HL3 : filter (fun x => negb (Nat.eqb (S (d_next d)) x)) (S (d_next d) :: d_live d) = d_live d) by (apply live_out; revert HL; apply Forall_impl; intros a Ha; lia).
  destruct write1.
  - eexists _, _, _. split; [intros n Hn; do 9 (destruct n as [|n]; [lia|]); unfold sis_write, new_output, write, os_close, delete_file; steps HE HL2 HL3 HA; reflexivity|]. cbn [d_live d_names]. auto.
  - assert (HN : forall x, In x (filter (fun x => negb (old =? x)) (gen :: new :: d_names d)) <-> (x = new \/ x = gen \/ In x (d_names d)) /\ x <> old).
    { intros x. rewrite filter_In. cbn [In]. destruct (Z.eqb_spec old x); cbn [negb]; intuition congruence. }
    destruct write2; (eexists _, _, _; split; [intros n Hn; do 9 (destruct n as [|n]; [lia|]); unfold sis_write, new_output, write, os_close, delete_file; steps HE HL2 HL3 HA; reflexivity|]; cbn [d_live d_names]; split; [reflexivity|]; split; [reflexivity|exact HN]).
Qed.
Ltac go := repeat first [rewrite ex_seq|rewrite ex_fin|rewrite ex_catch|rewrite ex_do|rewrite ex_raise|rewrite ex_handled|rewrite bl_step|progress cbn [xraise push in_fin negb fst snd jump handled code set_fin set_handled obind d_os d_live d_next d_names d_pending xpop]].
(* the first stream cannot be opened: the block after XFINALLY closes NULL *)
Lemma open1_stuck write1 open2 write2 remove new gen old d buf n : d_os d = None -> (9 <= n)%nat -> exec n (sis_write true write1 open2 write2 remove new gen old) d [] buf = Some Stuck.
Proof. intros HO Hn. do 9 (destruct n as [|n]; [lia|]). unfold sis_write, new_output, write, os_close, delete_file. go. rewrite HO. reflexivity. Qed.
(* the second one: it closes the first stream once more *)
Lemma open2_stuck write2 remove new gen old d buf n : Forall (fun h => (h < d_next d)%nat) (d_live d) -> (9 <= n)%nat -> exec n (sis_write false false true write2 remove new gen old) d [] buf = Some Stuck.
Proof.
  intros HL Hn. do 9 (destruct n as [|n]; [lia|]). unfold sis_write, new_output, write, os_close, delete_file. go.
  assert (HE : forall (l : list nat) k, existsb (Nat.eqb k) (k :: l) = true) by (intros l k; cbn; rewrite Nat.eqb_refl; reflexivity). rewrite HE. go. rewrite (live_out _ _ HL).
  destruct (existsb (Nat.eqb (d_next d)) (d_live d)) eqn:E; [|reflexivity]. apply existsb_exists in E. destruct E as (y & Y1 & Y2). apply Nat.eqb_eq in Y2. rewrite Forall_forall in HL. specialize (HL y Y1). lia.
Qed.
(* a file that cannot be removed: it is remembered for later, and the exception goes on all the same *)
Lemma remove_raises new gen old d buf n : Forall (fun h => (h < d_next d)%nat) (d_live d) -> In old (d_names d) -> (9 <= n)%nat ->
  exists d', exec n (sis_write false false false false true new gen old) d [] buf = Some (Res (Exit IO_ERROR old) d' [] old) /\ d_pending d' = old :: d_pending d /\ In new (d_names d').
Proof.
  intros HL HI Hn. do 9 (destruct n as [|n]; [lia|]). unfold sis_write, new_output, write, os_close, delete_file.
  assert (HE : forall (l : list nat) k, existsb (Nat.eqb k) (k :: l) = true) by (intros l k; cbn; rewrite Nat.eqb_refl; reflexivity).
  assert (HX : existsb (Z.eqb old) (gen :: new :: d_names d) && true = true) by (rewrite andb_true_r; apply existsb_exists; exists old; split; [right; right; exact HI|apply Z.eqb_refl]).
  eexists. split; [repeat (go; rewrite ?HE, ?HX); reflexivity|]. cbn [d_pending d_names]. split; [reflexivity|right; left; reflexivity].
Qed.
Lemma inside U (s : stmt U) u x st buf : calm Body s u None -> in_fin x = false -> handled x = true ->
  match eval false s u None with
  | Bad => exists n0, forall n, (n0 <= n)%nat -> exec n s u (x :: st) buf = Some Stuck
  | R v None _ => exists n0 y buf', in_fin y = false /\ handled y = true /\ forall n, (n0 <= n)%nat -> exec n s u (x :: st) buf = Some (Res Next v (y :: st) buf')
  | R v (Some e) _ => exists n0 buf', forall n, (n0 <= n)%nat -> exec n s u (x :: st) buf = Some (Res Thrown v (mkCtx false false (fst e) :: st) buf')
  end.
Proof.
  intros HC HF HH. pose proof (exec_ok U s Body u None HC (x :: st) buf ltac:(cbn; repeat split; auto; discriminate) ltac:(auto)) as G. unfold Ok in G. cbn [is_final] in G. destruct (eval false s u None) as [|v q l]; [exact G|]. destruct G as (n0 & o & st' & buf' & G1 & G2 & G3 & G4). unfold Post in G4. destruct l.
  - destruct G4 as (e & -> & _ & -> & ->). eauto.
  - destruct G4 as (-> & R1 & Q & T1 & T2). specialize (Q eq_refl). subst q. destruct st' as [|y st']; [exfalso; destruct T2 as [T2 _]; specialize (T2 eq_refl); discriminate|]. cbn [tl] in T1. subst st'. destruct R1 as (R1 & R2 & _). exists n0, y, buf'. auto.
Qed.
Lemma finally_skipped U c m h (f : stmt U) n u buf : (4 <= n)%nat ->
  exec n (CasesFin (Raise (fun _ => Some (c, m))) (fun _ => false) h f) u [] buf = Some (Res (Exit c m) u [] m) /\
  eval false (CasesFin (Raise (fun _ => Some (c, m))) (fun _ => false) h f) u None = match eval false f u None with Bad => Bad | R v q true => R v q true | R v _ false => R v (Some (c, m)) true end.
Proof. intros Hn. do 4 (destruct n as [|n]; [lia|]). split; [reflexivity|]. cbn. destruct (eval false f u None) as [|v q []]; reflexivity. Qed.
Lemma dropped U e1 e2 n (u : U) buf : (4 <= n)%nat -> exec n (Fin (Raise (fun _ => Some e1)) (Raise (fun _ => Some e2))) u [] buf = Some (Res (Exit (fst e1) (snd e2)) u [] (snd e2)).
Proof. intros Hn. do 4 (destruct n as [|n]; [lia|]). destruct e1, e2. reflexivity. Qed.
Lemma handled_inside U e1 e2 n (u : U) buf : (6 <= n)%nat -> exec n (Catch (Raise (fun _ => Some e1)) (Catch (Raise (fun _ => Some e2)) Handled)) u [] buf = Some (Res (Exit (fst e1) (snd e2)) u [] (snd e2)).
Proof. intros Hn. do 6 (destruct n as [|n]; [lia|]). destruct e1, e2. reflexivity. Qed.
