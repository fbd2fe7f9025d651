(* Offsets, expansion, merging and printing of excerpts. *)
From Coq Require Import Sorting.Permutation Sorting.Sorted.
From Verif Require Import Util Match_Model Match_Spec Match_Proofs Excerpt_Model Excerpt_Spec.
Open Scope Z_scope.
Ltac splits := repeat match goal with |- _ /\ _ => split end.

(* ---------- skipped offsets *)
Definition le2 (o r : Z * Z) : Prop := fst o <= fst r /\ snd o <= snd r.
Definition gap_le (o r : Z * Z) : Prop := r = (0, 0) \/ le2 o r.
Lemma fill_idem : forall l prev, fill_from prev (fill_from prev l) = fill_from prev l.
Proof.
  induction l as [|o l IH]; intros prev; [reflexivity|]. cbn [fill_from fst snd].
  set (o1 := ((if fst o =? 0 then fst prev else fst o), (if snd o =? 0 then snd prev else snd o))).
  assert (E : ((if (if fst o =? 0 then fst prev else fst o) =? 0 then fst prev else (if fst o =? 0 then fst prev else fst o)), (if (if snd o =? 0 then snd prev else snd o) =? 0 then snd prev else (if snd o =? 0 then snd prev else snd o))) = o1).
  { unfold o1. f_equal; [destruct (fst o =? 0) eqn:A|destruct (snd o =? 0) eqn:A]; try (rewrite A; reflexivity); [destruct (fst prev =? 0)|destruct (snd prev =? 0)]; reflexivity. }
  rewrite E. f_equal. apply IH.
Qed.
Lemma fill_fill l : fill (fill l) = fill l.
Proof. destruct l as [|o l]; [reflexivity|]. cbn [fill]. f_equal. apply fill_idem. Qed.
Lemma fill_from_len : forall l prev, length (fill_from prev l) = length l.
Proof. induction l as [|o l IH]; intros prev; cbn [fill_from length]; [reflexivity|]. f_equal. apply IH. Qed.
Lemma fill_len l : length (fill l) = length l.
Proof. destruct l as [|o l]; cbn [fill length]; [reflexivity|]. f_equal. apply fill_from_len. Qed.
Definition in_text (N : Z) (o : Z * Z) : Prop := 0 <= fst o <= snd o /\ snd o <= N.
Lemma fill_from_ok N : forall l prev, in_text N prev -> Forall (in_text N) l -> StronglySorted gap_le l -> Forall (gap_le prev) l ->
  StronglySorted le2 (fill_from prev l) /\ Forall (le2 prev) (fill_from prev l) /\ Forall2 (fun o f => o = (0, 0) \/ f = o) l (fill_from prev l) /\ Forall (in_text N) (fill_from prev l).
Proof.
  induction l as [|o l IH]; intros prev Hp Ht Hs Hg; cbn [fill_from]; [splits; constructor|]. inversion Ht as [|? ? T1 T2]; subst. inversion Hs as [|? ? S1 S2]; subst. inversion Hg as [|? ? G1 G2]; subst.
  set (o1 := (_, _)). assert (H : (o1 = prev /\ o = (0, 0)) \/ (o1 = o /\ le2 prev o)).
  { destruct G1 as [->|G1]; [left; split; [destruct prev; reflexivity|reflexivity]|]. right. split; [|exact G1]. unfold o1. destruct o as (a, b), prev as (c, d). unfold le2, in_text in *. cbn [fst snd] in *. f_equal; [destruct (Z.eqb_spec a 0)|destruct (Z.eqb_spec b 0)]; lia. }
  assert (H1 : in_text N o1 /\ le2 prev o1 /\ Forall (gap_le o1) l).
  { destruct H as [(-> & _)|(-> & HL)]; splits; auto. unfold le2; lia. }
  destruct H1 as (A & B & C). destruct (IH o1 A T2 S1 C) as (R1 & R2 & R3 & R4). splits.
  - constructor; assumption.
  - constructor; [exact B|]. eapply Forall_impl; [|exact R2]. intros r (X & Y). destruct B. unfold le2. lia.
  - constructor; [|exact R3]. destruct H as [(_ & H)|(H & _)]; auto.
  - constructor; assumption.
Qed.
Lemma rise_list text offs : offsets_rise text offs -> Forall (in_text (Z.of_nat (length text))) offs /\ StronglySorted gap_le offs.
Proof.
  intros (H1 & H2). split.
  - apply Forall_forall. intros o Ho. apply In_nth_error in Ho. destruct Ho as (p & Hp). apply (H1 p o Hp).
  - clear H1. induction offs as [|o l IH]; constructor.
    + apply IH. intros p q a b Hpq Ha Hb. apply (H2 (S p) (S q)); auto. lia.
    + apply Forall_forall. intros r Hr. apply In_nth_error in Hr. destruct Hr as (p & Hp). apply (H2 0%nat (S p)); auto. lia.
Qed.
Lemma sorted_nth {A} (R : A -> A -> Prop) : forall l p q a b, StronglySorted R l -> (p < q)%nat -> nth_error l p = Some a -> nth_error l q = Some b -> R a b.
Proof.
  induction l as [|x l IH]; intros p q a b HS Hpq Ha Hb; [destruct p; discriminate|]. inversion HS as [|? ? S1 S2]; subst. destruct q as [|q]; [lia|]. destruct p as [|p]; cbn [nth_error] in *.
  - apply some_inj in Ha. subst x. rewrite Forall_forall in S2. apply S2. apply nth_error_In with q. exact Hb.
  - apply (IH p q); auto. lia.
Qed.
Lemma fill_ok text offs : offsets_rise text offs -> let F := fill offs in
  (forall p o, nth_error F p = Some o -> in_text (Z.of_nat (length text)) o) /\ (forall p q o r, (p <= q)%nat -> nth_error F p = Some o -> nth_error F q = Some r -> le2 o r) /\
  (forall p o, nth_error offs p = Some o -> o <> (0, 0) -> nth_error F p = Some o).
Proof.
  intros H F. destruct (rise_list text offs H) as (H1 & H2). destruct offs as [|o l]; [splits; intros; destruct p; discriminate|]. inversion H1 as [|? ? T1 T2]; subst. inversion H2 as [|? ? S1 S2]; subst.
  destruct (fill_from_ok _ l o T1 T2 S1 S2) as (R1 & R2 & R3 & R4). assert (RS : StronglySorted le2 F) by (constructor; assumption). splits.
  - intros p r Hr. apply nth_error_In in Hr. destruct Hr as [<-|Hr]; [exact T1|]. rewrite Forall_forall in R4. apply R4. exact Hr.
  - intros p q a b Hpq Ha Hb. destruct (Nat.eq_dec p q) as [->|]; [assert (a = b) by congruence; subst; unfold le2; lia|]. apply (sorted_nth le2 F p q); auto. lia.
  - intros p r Hr Hne. destruct p as [|p]; [exact Hr|]. cbn [nth_error fill F] in *. clear - R3 Hr Hne. revert p Hr. induction R3 as [|a b l f Hab R3 IH]; intros p Hr; [destruct p; discriminate|]. destruct p as [|p]; cbn [nth_error] in *; [|apply IH; exact Hr]. apply some_inj in Hr. subst a. destruct Hab as [Hab|Hab]; [contradiction|]. subst b. reflexivity.
Qed.

(* ---------- printing *)
Section SHOW.
  Variables (text pre post ell : list Z).
  Notation N := (Z.of_nat (length text)).
  Notation d := (mkLdf text (Z.of_nat (length text)) false).
  Lemma loop_part capa b c : b <= N -> forall ms out from, 0 <= from -> chain b from ms -> Z.of_nat (length out) + (b - from) + Z.of_nat (length ms) * (Z.of_nat (length pre) + Z.of_nat (length post)) + c <= capa -> 0 <= c ->
    exists o last, h_loop capa d pre post ms out from = Some (o, last, d) /\ (forall b2, b <= b2 -> o ++ slice text last b2 = out ++ marked text pre post from ms b2) /\ 0 <= last <= b /\ Z.of_nat (length o) + (b - last) + c <= capa.
  Proof.
    intros HbN. induction ms as [|(s, e) ms IH]; intros out from H0 HC HL Hc; cbn [h_loop marked chain length] in *.
    - exists out, from. splits; auto; lia.
    - destruct HC as (H1 & H2 & H3). pose proof (chain_le _ _ _ H3) as Hen. rewrite copy_ok by nia. cbn [obind fst snd]. replace (from + (s - from)) with s by lia. unfold put at 1. pose proof (slice_len text from s ltac:(lia) ltac:(lia)) as L1. rewrite (proj2 (Z.leb_le _ _)) by (rewrite app_length, L1; nia). cbn [obind].
      rewrite copy_ok by (try rewrite !app_length, L1; nia). cbn [obind fst snd]. replace (s + (e - s)) with e by lia. unfold put at 1. pose proof (slice_len text s e ltac:(lia) ltac:(lia)) as L2. rewrite (proj2 (Z.leb_le _ _)) by (rewrite !app_length, L1, L2; nia). cbn [obind].
      destruct (IH ((((out ++ slice text from s) ++ pre) ++ slice text s e) ++ post) e ltac:(lia) H3) as (o & last & E & E2 & E3 & E4); [rewrite !app_length, L1, L2; nia|exact Hc|]. exists o, last. split; [exact E|]. split; [|split; assumption]. intros b2 Hb2. rewrite (E2 b2 Hb2). rewrite <- !app_assoc. reflexivity.
  Qed.
  Variables (offs os : list (Z * Z)) (L : Z).
  Notation F := (fill offs).
  Notation cnt := (Z.of_nat (length offs)).
  Hypothesis HL : 0 < L.
  Hypothesis HF1 : forall p o, nth_error F p = Some o -> in_text N o.
  Hypothesis HF2 : forall p q o r, (p <= q)%nat -> nth_error F p = Some o -> nth_error F q = Some r -> le2 o r.
  Hypothesis Hse : forall i, (i < length os)%nat -> st os i <= en os i.
  Hypothesis Hes : forall i j, (i < j < length os)%nat -> en os i <= st os j.
  Definition si (e : exc) : nat := Z.to_nat (x_start e).
  Definition sz (e : exc) : nat := Z.to_nat (x_end e + 1).
  Record ok (e : exc) : Prop := {
    k_start : 0 <= x_start e; k_end : -1 <= x_end e; k_le : (si e <= sz e <= length os)%nat;
    k_off : 0 <= x_soff e <= x_eoff e; k_n : x_eoff e <= N;
    k_spos : 0 <= x_spos e; k_left : 0 < x_spos e -> exists o, nth_error F (Z.to_nat (x_spos e)) = Some o /\ x_soff e = fst o;
    k_epos : 0 <= x_epos e; k_right : forall o, nth_error F (Z.to_nat (x_epos e)) = Some o -> x_eoff e <= snd o;
    k_st : forall k, (si e <= k < length os)%nat -> x_soff e <= st os k;
    k_en : forall k, (k < sz e)%nat -> en os k <= x_eoff e }.
  Lemma F_len : length F = length offs. Proof. apply fill_len. Qed.
  Lemma run_chain b : forall n i from, (i + n <= length os)%nat -> from <= b -> (forall k, (i <= k < i + n)%nat -> from <= st os k /\ en os k <= b) -> chain b from (firstn n (skipn i os)).
  Proof.
    induction n as [|n IH]; intros i from Hi Hf HK; cbn [firstn chain]; [exact Hf|]. assert (E : skipn i os = nth i os (0, 0) :: skipn (S i) os).
    { clear -Hi. revert i Hi. induction os as [|m t IH]; intros i Hi; [cbn in Hi; lia|]. destruct i as [|i]; [reflexivity|]. cbn [length] in Hi. specialize (IH i ltac:(lia)). cbn [skipn nth] in *. exact IH. }
    rewrite E. cbn [firstn chain]. destruct (nth i os (0, 0)) as (s, e) eqn:Ei. pose proof (HK i ltac:(lia)) as (K1 & K2). pose proof (Hse i ltac:(lia)) as K3. assert (Es : st os i = s) by (unfold st; rewrite Ei; reflexivity). assert (Ee : en os i = e) by (unfold en; rewrite Ei; reflexivity). splits; try lia.
    apply IH; [lia|lia|]. intros k Hk. specialize (HK k ltac:(lia)). specialize (Hes i k ltac:(lia)). lia.
  Qed.
  Lemma reads_ok {A} : forall n i (l : list A), (i + n <= length l)%nat -> Excerpt_Model.reads l (seq i n) = Some (firstn n (skipn i l)).
  Proof.
    induction n as [|n IH]; intros i l Hi; cbn [seq Excerpt_Model.reads firstn]; [reflexivity|]. destruct (nth_error l i) as [a|] eqn:E; [|apply nth_error_None in E; lia]. cbn [obind]. rewrite IH by lia. cbn [obind]. f_equal.
    assert (Es : skipn i l = a :: skipn (S i) l). { clear -E. revert i E. induction l as [|m t IH]; intros i E; [destruct i; discriminate|]. destruct i as [|i]; cbn [nth_error skipn] in *; [apply some_inj in E; subst; reflexivity|]. apply (IH i E). }
    rewrite Es. reflexivity.
  Qed.
  Definition part_of (e : exc) : part := mkPart (x_soff e) (x_eoff e) (si e) (sz e).
  Lemma str_ok e : ok e -> get_str d os pre post ell e = Some (shown text pre post ell os (part_of e), d).
  Proof.
    intros [A1 A2 A3 A4 A5 _ _ _ _ A6 A7]. unfold get_str. set (capa := 10 + _ - _ + _ + _). unfold put at 1. cbn [length Nat.add].
    assert (Hc : capa = 10 + x_eoff e - x_soff e + Z.of_nat (sz e - si e) * (Z.of_nat (length pre) + Z.of_nat (length post)) + 2 * Z.of_nat (length ell)) by (unfold capa; repeat f_equal; unfold sz, si in *; lia).
    clearbody capa. set (o1 := if 0 <? x_soff e then ell else []). assert (Ho1 : Z.of_nat (length o1) <= Z.of_nat (length ell)) by (unfold o1; destruct (0 <? x_soff e); cbn [length]; lia).
    rewrite (proj2 (Z.leb_le _ _)) by nia. cbn [obind app]. unfold span. replace (Z.to_nat (x_end e - x_start e + 1)) with (sz e - si e)%nat by (unfold sz, si in *; lia). fold (si e). rewrite reads_ok by lia. cbn [obind].
    set (ms := firstn (sz e - si e) (skipn (si e) os)). assert (Hms : length ms = (sz e - si e)%nat) by (unfold ms; rewrite firstn_length, skipn_length; lia).
    assert (HC : chain (x_eoff e) (x_soff e) ms) by (apply run_chain; [lia|lia|]; intros k Hk; split; [apply A6; lia|apply A7; lia]).
    destruct (loop_part capa (x_eoff e) (10 + Z.of_nat (length ell)) A5 ms o1 (x_soff e) ltac:(lia) HC ltac:(rewrite Hms; nia) ltac:(lia)) as (o & last & E1 & E2 & E3 & E4). rewrite E1. cbn [obind f_len]. fold (stop text ell (x_eoff e)).
    assert (Hstop : x_eoff e <= stop text ell (x_eoff e) <= N /\ stop text ell (x_eoff e) - x_eoff e <= Z.of_nat (length ell) /\ (stop text ell (x_eoff e) < N -> stop text ell (x_eoff e) = x_eoff e)) by (unfold stop; destruct (Z.leb_spec (N - x_eoff e) (Z.of_nat (length ell))); lia).
    destruct Hstop as (H1 & H2 & H3). rewrite copy_ok by lia. cbn [obind fst snd f_len]. replace (last + (stop text ell (x_eoff e) - last)) with (stop text ell (x_eoff e)) by lia.
    pose proof (slice_len text last (stop text ell (x_eoff e)) ltac:(lia) ltac:(lia)) as L1. set (tl := if stop text ell (x_eoff e) <? N then ell else []).
    assert (Htl : Z.of_nat (length tl) + (stop text ell (x_eoff e) - x_eoff e) <= Z.of_nat (length ell)) by (unfold tl; destruct (Z.ltb_spec (stop text ell (x_eoff e)) N) as [D|D]; [rewrite (H3 D); lia|cbn [length]; lia]).
    unfold put at 1. rewrite (proj2 (Z.leb_le _ _)) by (rewrite app_length, L1; lia). cbn [obind]. unfold put at 1. rewrite (proj2 (Z.leb_le _ _)) by (rewrite !app_length, L1; cbn [length]; lia). cbn [obind]. f_equal. f_equal.
    rewrite (E2 (stop text ell (x_eoff e)) ltac:(lia)). unfold shown, part_of, run. cbn [p_from p_to p_first p_next]. fold ms. fold o1. fold tl. rewrite <- app_assoc. reflexivity.
  Qed.
  (* ---------- expansion *)
  Lemma expand_ok M : forall fuel e, (Z.to_nat (x_spos e) + Z.to_nat (cnt - 1 - x_epos e) < fuel)%nat -> ok e -> x_eoff e - x_soff e <= M ->
    exists e2, expand fuel M F e = Some e2 /\ ok e2 /\ x_soff e2 <= x_soff e /\ x_eoff e <= x_eoff e2 /\ x_eoff e2 - x_soff e2 <= M /\ si e2 = si e /\ sz e2 = sz e.
  Proof.
    induction fuel as [|fuel IH]; intros e Hf Hok HM; [lia|]. cbn [expand].
    assert (HLs : exists b e1, step_left M F e = Some (b, e1) /\ ok e1 /\ x_soff e1 <= x_soff e /\ x_eoff e1 = x_eoff e /\ x_epos e1 = x_epos e /\ x_eoff e1 - x_soff e1 <= M /\ si e1 = si e /\ sz e1 = sz e /\ (if b then x_spos e1 = x_spos e - 1 /\ 0 < x_spos e else e1 = e)).
    { pose proof Hok as [A1 A2 A3 A4 A5 A6 A7 A8 A9 A10 A11]. unfold step_left. destruct (Z.ltb_spec 0 (x_spos e)) as [Hp|Hp]; [|exists false, e; splits; auto; lia]. destruct (A7 Hp) as (o & Ho & Es). unfold znth. rewrite (proj2 (Z.ltb_ge _ _)) by lia.
      assert (Hlt : (Z.to_nat (x_spos e) < length F)%nat) by (apply nth_error_Some; congruence). destruct (nth_error F (Z.to_nat (x_spos e - 1))) as [p|] eqn:Ep; [|apply nth_error_None in Ep; lia]. cbn [obind]. destruct (Z.ltb_spec (x_eoff e - fst p) M) as [D|D]; [|exists false, e; splits; auto; lia].
      pose proof (HF2 (Z.to_nat (x_spos e - 1)) (Z.to_nat (x_spos e)) p o ltac:(lia) Ep Ho) as (Q1 & Q2). pose proof (HF1 _ _ Ep) as (Q3 & Q4). eexists true, _. split; [reflexivity|]. cbn [x_soff x_eoff x_epos x_spos]. splits; try lia; try reflexivity.
      split; cbn [x_start x_end x_spos x_epos x_soff x_eoff]; auto; try lia.
      - intros _. exists p. auto.
      - intros k Hk. specialize (A10 k Hk). lia. }
    destruct HLs as (b & e1 & E1 & K1 & K2 & K3 & K4 & K5 & K6 & K7 & K8). rewrite E1. cbn [obind snd fst].
    assert (HR : exists b2 e2, step_right M F e1 = Some (b2, e2) /\ ok e2 /\ x_soff e2 = x_soff e1 /\ x_eoff e1 <= x_eoff e2 /\ x_spos e2 = x_spos e1 /\ x_eoff e2 - x_soff e2 <= M /\ si e2 = si e1 /\ sz e2 = sz e1 /\ (if b2 then x_epos e2 = x_epos e1 + 1 /\ x_epos e1 < cnt - 1 else e2 = e1)).
    { pose proof K1 as [A1 A2 A3 A4 A5 A6 A7 A8 A9 A10 A11]. unfold step_right. rewrite F_len. destruct (Z.ltb_spec (x_epos e1) (cnt - 1)) as [Hp|Hp]; [|exists false, e1; splits; auto; lia]. unfold znth. rewrite (proj2 (Z.ltb_ge _ _)) by lia.
      destruct (nth_error F (Z.to_nat (x_epos e1 + 1))) as [p|] eqn:Ep; [|apply nth_error_None in Ep; rewrite F_len in Ep; lia]. cbn [obind]. destruct (Z.ltb_spec (snd p - x_soff e1) M) as [D|D]; [|exists false, e1; splits; auto; lia].
      destruct (nth_error F (Z.to_nat (x_epos e1))) as [o|] eqn:Eo; [|apply nth_error_None in Eo; rewrite F_len in Eo; lia].
      pose proof (HF2 (Z.to_nat (x_epos e1)) (Z.to_nat (x_epos e1 + 1)) o p ltac:(lia) Eo Ep) as (Q1 & Q2). pose proof (HF1 _ _ Ep) as (Q3 & Q4). specialize (A9 o eq_refl). eexists true, _. split; [reflexivity|]. cbn [x_soff x_eoff x_epos x_spos]. splits; try lia; try reflexivity.
      split; cbn [x_start x_end x_spos x_epos x_soff x_eoff]; auto; try lia.
      - intros r Hr. assert (r = p) by congruence. subst r. lia.
      - intros k Hk. specialize (A11 k Hk). lia. }
    destruct HR as (b2 & e2 & E2 & J1 & J2 & J3 & J4 & J5 & J6 & J7 & J8). rewrite E2. cbn [obind snd fst]. destruct (b || b2) eqn:Eb.
    - destruct (IH e2) as (e3 & R1 & R2 & R3 & R4 & R5 & R6 & R7).
      + pose proof (k_epos _ K1). pose proof (k_spos _ K1). destruct b, b2; try discriminate; try subst e1; try subst e2; lia.
      + exact J1.
      + exact J5.
      + exists e3. splits; auto; try lia; congruence.
    - exists e2. splits; auto; try lia; congruence.
  Qed.
  (* ---------- merging *)
  Definition le_e (a b : exc) : Prop := x_soff a <= x_soff b /\ x_eoff a <= x_eoff b /\ (si a <= si b)%nat /\ (sz a <= sz b)%nat.
  Lemma merge_ok : forall rest ei k merged, ok ei -> Forall ok rest -> Forall (le_e ei) rest -> StronglySorted le_e rest -> (1 <= merged < k)%nat -> x_eoff ei - x_soff ei <= Z.of_nat merged * L ->
    exists e2 m, merge1 L ei k rest merged = (e2, m) /\ (merged <= m < k + length rest)%nat /\ ok e2 /\ x_soff e2 = x_soff ei /\ si e2 = si ei /\ x_eoff e2 - x_soff e2 <= Z.of_nat m * L /\ le_e ei e2 /\ (sz e2 = sz ei \/ exists e, In e rest /\ sz e2 = sz e) /\
      forall i e, nth_error rest i = Some e -> if (k + i <=? m)%nat then x_eoff e <= x_eoff e2 /\ (sz e <= sz e2)%nat else Z.of_nat (k + i) * L <= x_eoff e - x_soff ei.
  Proof.
    induction rest as [|ej t IH]; intros ei k merged H1 H2 H3 H4 H5 H6; cbn [merge1].
    - exists ei, merged. cbn [length]. unfold le_e. splits; auto; try lia. intros i e Hi. destruct i; discriminate.
    - inversion H2 as [|? ? A1 A2]; subst. inversion H3 as [|? ? B1 B2]; subst. inversion H4 as [|? ? C1 C2]; subst. destruct B1 as (B11 & B12 & B13 & B14). destruct (Z.ltb_spec (x_eoff ej - x_soff ei) (Z.of_nat k * L)) as [D|D].
      + set (en2 := mkExc _ _ _ _ _ _ _). assert (Hok : ok en2).
        { destruct H1 as [P1 P2 P3 P4 P5 P6 P7 P8 P9 P10 P11], A1 as [Q1 Q2 Q3 Q4 Q5 Q6 Q7 Q8 Q9 Q10 Q11]. split; unfold en2; unfold si, sz in *; cbn [x_start x_end x_spos x_epos x_soff x_eoff] in *; auto; lia. }
        destruct (IH en2 (S k) k Hok A2) as (e2 & m & R1 & R2 & R3 & R4 & R5 & R6 & R7 & R8 & R9).
        * rewrite Forall_forall in *. intros y Hy. specialize (B2 y Hy). specialize (C2 y Hy). unfold le_e, en2, si, sz in *. cbn [x_start x_end x_soff x_eoff]. lia.
        * exact C1.
        * lia.
        * unfold en2. cbn [x_eoff x_soff]. lia.
        * exists e2, m. destruct R7 as (R71 & R72 & R73 & R74). unfold en2, si, sz in R71, R72, R73, R74. cbn [x_start x_end x_soff x_eoff] in R71, R72, R73, R74. fold (si ei) in R73. fold (si e2) in R73. fold (sz ej) in R74. fold (sz e2) in R74.
          splits; auto; try (cbn [length]; lia); try (unfold le_e; splits; lia).
          -- destruct R8 as [R8|(e & He & R8)]; right; [exists ej; split; [left; reflexivity|exact R8]|exists e; split; [right; exact He|exact R8]].
          -- intros i e Hi. destruct i as [|i]; cbn [nth_error] in Hi.
             ++ apply some_inj in Hi. subst e. rewrite (proj2 (Nat.leb_le (k + 0) m)) by lia. split; lia.
             ++ specialize (R9 i e Hi). replace (k + S i)%nat with (S k + i)%nat by lia. exact R9.
      + destruct (IH ei (S k) merged H1 A2 B2 C1 ltac:(lia) H6) as (e2 & m & R1 & R2 & R3 & R4 & R5 & R6 & R7 & R8 & R9). exists e2, m. splits; auto; try (cbn [length]; lia).
        * destruct R8 as [R8|(e & He & R8)]; [left; exact R8|right; exists e; split; [right; exact He|exact R8]].
        * intros i e Hi. destruct i as [|i]; cbn [nth_error] in Hi.
          -- apply some_inj in Hi. subst e. destruct (Nat.leb_spec (k + 0) m) as [D2|D2]; [|replace (k + 0)%nat with k by lia; lia]. destruct (Nat.eq_dec m merged) as [->|Hm]; [lia|].
             (* a later excerpt was merged, which ends after this one *)
             assert (HX : x_eoff ej <= x_eoff e2 /\ (sz ej <= sz e2)%nat); [|exact HX]. assert (Hm2 : (merged < m)%nat) by lia.
             assert (HN : exists i2 y, nth_error t i2 = Some y /\ (S k + i2 <= m)%nat). { destruct t as [|y t2]; [cbn [merge1] in R1; injection R1 as _ R1; lia|]. exists 0%nat, y. split; [reflexivity|]. destruct (Nat.leb_spec (S k + 0) m) as [X|X]; [exact X|]. exfalso. assert (m = k) by lia. subst m. clear - R1 H5. revert R1. assert (G : forall rest ei k2 merged e m, merge1 L ei k2 rest merged = (e, m) -> m = merged \/ (k2 <= m)%nat). { induction rest as [|z rest IHr]; intros ei0 k2 mg e0 m0 E; cbn [merge1] in E; [injection E as _ <-; left; reflexivity|]. destruct (_ <? _); apply IHr in E; lia. } intros E. apply G in E. lia. }
             destruct HN as (i2 & y & Hy & Hle). specialize (R9 i2 y Hy). rewrite (proj2 (Nat.leb_le _ _) Hle) in R9. rewrite Forall_forall in C2. specialize (C2 y (nth_error_In _ _ Hy)). unfold le_e in C2. lia.
          -- specialize (R9 i e Hi). replace (k + S i)%nat with (S k + i)%nat by lia. exact R9.
  Qed.
  Lemma ss_skipn {A} (R : A -> A -> Prop) : forall n l, StronglySorted R l -> StronglySorted R (skipn n l).
  Proof. induction n as [|n IH]; intros l H; [exact H|]. destruct l; [exact H|]. cbn [skipn]. apply IH. inversion H; assumption. Qed.
  Lemma in_skipn {A} : forall n (l : list A) x, In x (skipn n l) -> In x l.
  Proof. induction n as [|n IH]; intros l x H; [exact H|]. destruct l; [exact H|]. right. apply IH. exact H. Qed.
  Lemma nth_skipn {A} : forall n (l : list A) i, nth_error (skipn n l) i = nth_error l (n + i).
  Proof. induction n as [|n IH]; intros l i; [reflexivity|]. destruct l; [destruct i; reflexivity|]. cbn [skipn]. apply IH. Qed.
  Definition apart_p (a b : part) : Prop := p_to a <= p_from b.
  Definition holds_e (p : part) (e : exc) : Prop := p_from p <= x_soff e /\ x_eoff e <= p_to p /\ (p_first p <= si e)%nat /\ (sz e <= p_next p)%nat.
  Lemma emit_ok offs2 : fill offs2 = F -> length offs2 = length offs -> forall fuel es B, (length es <= fuel)%nat -> Forall ok es -> StronglySorted le_e es -> Forall (fun e => x_spos e < cnt \/ x_spos e = 0) es -> Forall (fun e => x_eoff e - x_soff e <= L) es ->
    (forall i e, nth_error es i = Some e -> B + Z.of_nat (S i) * L <= x_eoff e) ->
    exists ps, emit fuel L d offs2 os pre post ell es = Some (map (shown text pre post ell os) ps) /\ (length ps <= length es)%nat /\ StronglySorted apart_p ps /\ Forall (sound text os) ps /\ Forall (fun p => B <= p_from p) ps /\ lengths ps <= Z.of_nat (length es) * L /\
      (forall e, In e es -> exists p, In p ps /\ holds_e p e) /\ (forall p, In p ps -> exists a b, In a es /\ In b es /\ p_first p = si a /\ p_next p = sz b).
  Proof.
    intros HF0 HF3 fuel. revert offs2 HF0 HF3. induction fuel as [|fuel IH]; intros offs2 HF0 HF3 es B Hf H1 H2 H3 H4 H5; (destruct es as [|ei rest]; [exists []; cbn [emit map length]; unfold lengths; cbn; splits; try constructor; try lia; intros; contradiction|]); [cbn [length] in Hf; lia|].
    cbn [emit]. inversion H1 as [|? ? A1 A2]; subst. inversion H2 as [|? ? S1 S2]; subst. inversion H3 as [|? ? C1 C2]; subst. inversion H4 as [|? ? D1 D2]; subst.
    destruct (merge_ok rest ei 2 1 A1 A2 S2 S1 ltac:(lia) ltac:(lia)) as (e1 & m & E1 & M1 & M2 & M3 & M4 & M5 & M6 & M7 & M8). rewrite E1. rewrite HF0, HF3.
    destruct (expand_ok (Z.of_nat m * L) (S (length offs + length offs)) e1) as (e2 & E2 & X1 & X2 & X3 & X4 & X5 & X6).
    { pose proof (k_epos _ M2). assert (x_spos e1 = x_spos ei). { clear - E1. assert (G : forall rest ei k mg e m, merge1 L ei k rest mg = (e, m) -> x_spos e = x_spos ei). { intros rs; induction rs as [|z rs IHr]; intros a k mg e0 m0 E; cbn [merge1] in E; [injection E as <- _; reflexivity|]. destruct (_ <? _); apply IHr in E; exact E. } eapply G. exact E1. } destruct C1; lia. }
    { exact M2. } { exact M5. }
    rewrite E2. cbn [obind]. rewrite (str_ok e2 X1). cbn [obind fst snd].
    set (rest2 := skipn (m - 1) rest). assert (Hin2 : forall y, In y rest2 -> In y rest) by (intros y; apply in_skipn).
    assert (Hlen2 : length rest2 = (length rest - (m - 1))%nat) by (unfold rest2; apply skipn_length).
    set (B2 := x_soff ei + Z.of_nat m * L). rewrite Forall_forall in A2, C2, D2.
    assert (HB2 : forall i e, nth_error rest2 i = Some e -> B2 + Z.of_nat (S i) * L <= x_eoff e).
    { intros i e Hi. unfold rest2 in Hi. rewrite nth_skipn in Hi. specialize (M8 _ _ Hi). rewrite (proj2 (Nat.leb_gt _ _)) in M8 by lia. unfold B2. replace (Z.of_nat (2 + (m - 1 + i))) with (Z.of_nat m + Z.of_nat (S i)) in M8 by lia. lia. }
    destruct (IH F (fill_fill offs) F_len rest2 B2) as (ps & R1 & R2 & R3 & R4 & R5 & R6 & R7 & R8).
    { cbn [length] in Hf. lia. } { apply Forall_forall. auto. } { apply ss_skipn. exact S1. } { apply Forall_forall. auto. } { apply Forall_forall. auto. } { exact HB2. }
    rewrite R1. cbn [obind]. exists (part_of e2 :: ps). cbn [map length]. destruct M6 as (M61 & M62 & M63 & M64).
    assert (Hfrom : B <= x_soff e2).
    { assert (Hend : B + Z.of_nat m * L <= x_eoff e2); [|lia]. destruct (Nat.eq_dec m 1) as [->|Hm1]; [specialize (H5 0%nat ei eq_refl); cbn [Z.of_nat] in *; lia|].
      destruct (nth_error rest (m - 2)) as [y|] eqn:Ey; [|apply nth_error_None in Ey; lia]. specialize (H5 (S (m - 2)) y Ey). specialize (M8 _ _ Ey). rewrite (proj2 (Nat.leb_le _ _)) in M8 by lia. replace (S (S (m - 2))) with m in H5 by lia. lia. }
    assert (Hto : x_eoff e2 <= B2) by (unfold B2; lia).
    rewrite Forall_forall in R5. pose proof X1 as [K1 K2 K3 K4 K5 _ _ _ _ K6 K7]. splits.
    - reflexivity.
    - lia.
    - constructor; [exact R3|]. apply Forall_forall. intros p Hp. unfold apart_p, part_of. cbn [p_to]. specialize (R5 p Hp). lia.
    - constructor; [|exact R4]. unfold sound, part_of. cbn [p_from p_to p_first p_next]. splits; try lia. intros k Hk. split; [apply K6; lia|apply K7; lia].
    - constructor; [exact Hfrom|]. apply Forall_forall. intros p Hp. specialize (R5 p Hp). lia.
    - unfold lengths, zsum. cbn [map fold_right part_of p_to p_from]. fold (zsum (map (fun p => p_to p - p_from p) ps)). fold (lengths ps). replace (Z.of_nat (S (length rest))) with (Z.of_nat m + Z.of_nat (length rest2)) by lia. nia.
    - intros e [<-|He].
      + exists (part_of e2). split; [left; reflexivity|]. unfold holds_e, part_of. cbn [p_from p_to p_first p_next]. splits; try lia.
      + apply In_nth_error in He. destruct He as (i & Hi). destruct (Nat.leb_spec (2 + i) m) as [D|D].
        * exists (part_of e2). split; [left; reflexivity|]. specialize (M8 i e Hi). rewrite (proj2 (Nat.leb_le _ _) D) in M8. rewrite Forall_forall in S2. specialize (S2 e (nth_error_In _ _ Hi)). unfold le_e in S2. unfold holds_e, part_of. cbn [p_from p_to p_first p_next]. splits; try lia.
        * destruct (R7 e) as (p & P1 & P2); [|exists p; split; [right|]; assumption]. unfold rest2. apply nth_error_In with (n := (i - (m - 1))%nat). rewrite nth_skipn. replace (m - 1 + (i - (m - 1)))%nat with i by lia. exact Hi.
    - intros p [<-|Hp].
      + exists ei. unfold part_of. cbn [p_first p_next]. destruct M7 as [M7|(y & Hy & M7)]; [exists ei|exists y]; splits; try (left; reflexivity); try (right; exact Hy); congruence.
      + destruct (R8 p Hp) as (a & b & Q1 & Q2 & Q3 & Q4). exists a, b. splits; auto; right; auto.
  Qed.
End SHOW.
