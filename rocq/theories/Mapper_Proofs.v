From Coq Require Import Sorting.Permutation.
From Verif Require Import Util Strcmp Mapper_Model Mapper_Spec.
Open Scope Z_scope.

Lemma nth_error_snoc {A} (l : list A) x k y : nth_error (l ++ [x]) k = Some y -> nth_error l k = Some y \/ (k = length l /\ x = y).
Proof.
  intros H. destruct (Nat.lt_ge_cases k (length l)) as [G|G]; [left; rewrite nth_error_app1 in H by lia; exact H|].
  rewrite nth_error_app2 in H by lia. right. destruct (k - length l)%nat as [|j] eqn:E; [split; [lia|cbn in H; congruence]|destruct j; discriminate H].
Qed.
(* ----- the bits ----- *)
Lemma in_bits b i : In i (bits b) <-> nth i b false = true.
Proof.
  unfold bits. rewrite filter_In, in_seq. split; [tauto|]. intros H. split; [|exact H]. split; [lia|]. cbn. destruct (Nat.lt_ge_cases i (length b)); [assumption|].
  rewrite nth_overflow in H by assumption. discriminate.
Qed.
Lemma set_states_len b l : length (set_states b l) = length b.
Proof. induction l as [|i l IH]; cbn; [reflexivity|]. rewrite upd_length. exact IH. Qed.
Lemma set_states_nth l : forall b k, (k < length b)%nat -> nth k (set_states b l) false = true <-> nth k b false = true \/ In k l.
Proof.
  induction l as [|i l IH]; intros b k Hk; cbn [set_states fold_right In]; [tauto|]. change (fold_right (fun (i : nat) (b : list bool) => upd b i true) b l) with (set_states b l).
  rewrite nth_upd, set_states_len. destruct (Nat.eqb_spec i k) as [->|N]; cbn [andb].
  - destruct (Nat.ltb_spec k (length b)); [tauto|lia].
  - rewrite IH by exact Hk. intuition congruence.
Qed.
Lemma nth_repeat_false n k : nth k (repeat false n) false = false.
Proof. revert k. induction n as [|n IH]; intros [|k]; cbn; auto. Qed.

(* ----- the automaton of the patterns ----- *)
Definition suffix (l w : list Z) : Prop := exists u, w = u ++ l.
Definition prefs (p : list Z) : list (list Z) := map (fun j => firstn (S j) p) (seq 0 (length p)).
Definition first_rep (ms : list (list Z * list Z)) (p r : list Z) : Prop := exists a b, ms = a ++ (p, r) :: b /\ ~ In p (map fst a).
Record NI (n : nfa) (labs : list (list Z)) (done : list (list Z * list Z)) : Prop := {
  ni_len : length labs = length (n_states n);
  ni_fwd : forall i s l, nth_error (n_states n) i = Some s -> nth_error labs i = Some l ->
             (0 <= l_c s < 256 /\ In (l_c s) (n_alpha n) /\ l_val s = Z.of_nat (S (S i)) /\ nth_error labs (S i) = Some (l ++ [l_c s])) \/
             (l_c s = -1 /\ In (l, l_map s) done /\ l_val s = - Z.of_nat (length l));
  ni_start : forall c k, In (c, k) (n_start n) <-> exists j, k = S j /\ nth_error labs j = Some [c];
  ni_alpha : forall c k, In (c, k) (n_start n) -> In c (n_alpha n);
  ni_back : forall i l c, nth_error labs i = Some (l ++ [c]) -> l <> [] -> exists j s, i = S j /\ nth_error labs j = Some l /\ nth_error (n_states n) j = Some s /\ l_c s = c /\ l_val s = Z.of_nat (S i);
  ni_ne : forall i l, nth_error labs i = Some l -> l <> [];
  ni_all : forall p r, In (p, r) done -> exists i s, nth_error labs i = Some p /\ nth_error (n_states n) i = Some s /\ l_val s < 0;
  ni_first : forall i s l, nth_error (n_states n) i = Some s -> nth_error labs i = Some l -> l_val s < 0 ->
               (forall j s', (j < i)%nat -> nth_error (n_states n) j = Some s' -> l_val s' < 0 -> nth_error labs j <> Some l) -> first_rep done l (l_map s)
}.
Lemma prefs_len p : length (prefs p) = length p. Proof. unfold prefs. rewrite map_length, seq_length. reflexivity. Qed.
Lemma prefs_nth p j : (j < length p)%nat -> nth_error (prefs p) j = Some (firstn (S j) p).
Proof. intros H. unfold prefs. rewrite nth_error_map. rewrite (nth_error_nth' _ 0%nat) by (rewrite seq_length; exact H). rewrite seq_nth by exact H. reflexivity. Qed.
Lemma letters_len rep plen p : forall i, length (letters i p rep plen) = length p.
Proof. induction p as [|a [|b p] IH]; intros i; [reflexivity|reflexivity|]. cbn [letters length]. f_equal. apply IH. Qed.
Lemma letters_nth rep plen p : forall i j, (j < length p)%nat ->
  nth_error (letters i p rep plen) j = Some (if (S j =? length p)%nat then mkL (-1) (- Z.of_nat plen) rep else mkL (nth (S j) p 0) (Z.of_nat (S (i + j))) []).
Proof.
  induction p as [|a p IH]; intros i j Hj; [cbn in Hj; lia|]. destruct p as [|b p]; [destruct j; [reflexivity|cbn in Hj; lia]|].
  change (letters i (a :: b :: p) rep plen) with (mkL b (Z.of_nat (S i)) [] :: letters (S i) (b :: p) rep plen). destruct j as [|j]; [cbn; rewrite Nat.add_0_r; reflexivity|]. cbn [nth_error]. rewrite IH by (cbn in Hj |- *; lia).
  replace (S i + j)%nat with (i + S j)%nat by lia. reflexivity.
Qed.
Lemma firstn_snoc {A} (l : list A) j d : (j < length l)%nat -> firstn (S j) l = firstn j l ++ [nth j l d].
Proof. revert j. induction l as [|a l IH]; intros [|j] H; cbn in H; try lia; [reflexivity|]. cbn [firstn nth app]. f_equal. apply IH. lia. Qed.

Lemma NI_new n labs done p r b p' : NI n labs done -> p = b :: p' -> byte_string p ->
  let n' := mkN (n_start n ++ [(b, S (length (n_states n)))]) (n_states n ++ letters (S (length (n_states n))) p r (length p)) (n_alpha n ++ p) (n_capa n) in
  NI n' (labs ++ prefs p) (done ++ [(p, r)]).
Proof.
  intros H Hp Hb n'. pose proof (ni_len _ _ _ H) as HL. set (N := length (n_states n)) in *.
  assert (LP : (0 < length p)%nat) by (subst p; cbn; lia).
  (* a state and its label: old or new *)
  assert (ST : forall i s, nth_error (n_states n') i = Some s -> (i < N)%nat /\ nth_error (n_states n) i = Some s \/
     exists j, (j < length p)%nat /\ i = (N + j)%nat /\ s = if (S j =? length p)%nat then mkL (-1) (- Z.of_nat (length p)) r else mkL (nth (S j) p 0) (Z.of_nat (S (S N + j))) []).
  { intros i s G. cbn [n_states n'] in G. destruct (Nat.lt_ge_cases i N) as [L|L]; [left; rewrite nth_error_app1 in G by exact L; auto|right].
    rewrite nth_error_app2 in G by exact L. fold N in G. exists (i - N)%nat. assert (Q : (i - N < length p)%nat) by (rewrite <- (letters_len r (length p) p (S N)); apply nth_error_Some; congruence).
    rewrite letters_nth in G by exact Q. split; [exact Q|]. split; [lia|congruence]. }
  assert (LB : forall i l, nth_error (labs ++ prefs p) i = Some l -> (i < N)%nat /\ nth_error labs i = Some l \/ exists j, (j < length p)%nat /\ i = (N + j)%nat /\ l = firstn (S j) p).
  { intros i l G. destruct (Nat.lt_ge_cases i N) as [L|L]; [left; rewrite nth_error_app1 in G by lia; auto|right].
    rewrite nth_error_app2 in G by lia. rewrite HL in G. exists (i - N)%nat. assert (Q : (i - N < length p)%nat) by (rewrite <- prefs_len; apply nth_error_Some; congruence).
    rewrite prefs_nth in G by exact Q. split; [exact Q|]. split; [lia|congruence]. }
  assert (LN : forall j, (j < length p)%nat -> nth_error (labs ++ prefs p) (N + j) = Some (firstn (S j) p)).
  { intros j Hj. rewrite nth_error_app2 by lia. rewrite HL. replace (N + j - N)%nat with j by lia. apply prefs_nth, Hj. }
  assert (LO : forall i l, nth_error labs i = Some l -> nth_error (labs ++ prefs p) i = Some l).
  { intros i l G. rewrite nth_error_app1; [exact G|]. apply nth_error_Some. congruence. }
  assert (SO : forall i s, nth_error (n_states n) i = Some s -> nth_error (n_states n') i = Some s).
  { intros i l G. cbn [n_states n']. rewrite nth_error_app1; [exact G|]. apply nth_error_Some. congruence. }
  assert (SN : forall j, (j < length p)%nat -> nth_error (n_states n') (N + j) = Some (if (S j =? length p)%nat then mkL (-1) (- Z.of_nat (length p)) r else mkL (nth (S j) p 0) (Z.of_nat (S (S N + j))) [])).
  { intros j Hj. cbn [n_states n']. rewrite nth_error_app2 by (fold N; lia). fold N. replace (N + j - N)%nat with j by lia. apply letters_nth, Hj. }
  constructor.
  - cbn [n_states n']. rewrite !app_length, prefs_len, letters_len. lia.
  - intros i s l G1 G2. apply ST in G1. apply LB in G2. destruct G1 as [[L1 G1]|(j & Hj & -> & ->)], G2 as [[L2 G2]|(j' & Hj' & E' & ->)]; try lia.
    + destruct (ni_fwd _ _ _ H i s l G1 G2) as [(C & A & V & B)|(C & D & V)]; [left|right].
      * split; [exact C|]. split; [cbn; apply in_or_app; auto|]. split; [exact V|]. apply LO, B.
      * split; [exact C|]. split; [apply in_or_app; auto|exact V].
    + assert (j' = j) as -> by lia. destruct (Nat.eqb_spec (S j) (length p)) as [E|NE]; cbn [l_c l_val l_map].
      * right. rewrite E, firstn_all. split; [reflexivity|]. split; [apply in_or_app; right; left; reflexivity|reflexivity].
      * left. assert (Q : (S j < length p)%nat) by lia. pose proof (nth_In p 0 Q) as QI. unfold byte_string in Hb. rewrite Forall_forall in Hb. specialize (Hb _ QI).
        split; [lia|]. split; [cbn; apply in_or_app; right; exact QI|]. split; [lia|]. replace (S (N + j)) with (N + S j)%nat by lia. rewrite LN by exact Q. f_equal. apply firstn_snoc, Q.
  - intros c k. cbn [n_start n']. rewrite in_app_iff. rewrite (ni_start _ _ _ H). split.
    + intros [(j & -> & G)|[E|[]]]; [exists j; split; [reflexivity|apply LO, G]|]. injection E as <- <-. exists N. split; [reflexivity|]. replace N with (N + 0)%nat by lia. rewrite LN by exact LP. subst p. reflexivity.
    + intros (j & -> & G). apply LB in G. destruct G as [[L G]|(j' & Hj & -> & E)]; [left; exists j; auto|]. right. left.
      assert (j' = 0)%nat as -> by (apply (f_equal (@length Z)) in E; rewrite firstn_length in E; cbn [length] in E; lia). subst p. cbn [firstn] in E. injection E as <-. f_equal. lia.
  - intros c k G. cbn [n_start n_alpha n'] in *. apply in_app_or in G. apply in_or_app. destruct G as [G|[E|[]]]; [left; eapply ni_alpha; eauto|]. injection E as <- <-. right. subst p. left. reflexivity.
  - intros i l c G Hl. apply LB in G. destruct G as [[L G]|(j & Hj & -> & E)].
    + destruct (ni_back _ _ _ H i l c G Hl) as (j & s & -> & A & B & C & D). exists j, s. auto 6.
    + destruct j as [|j]. { exfalso. apply Hl. apply (f_equal (@length Z)) in E. rewrite app_length, firstn_length in E. cbn [length] in E. destruct l; [reflexivity|cbn [length] in E; lia]. }
      rewrite (firstn_snoc p (S j) 0) in E by exact Hj. apply app_inj_tail in E. destruct E as [-> ->].
      exists (N + j)%nat. eexists. split; [lia|]. split; [apply LN; lia|]. split; [apply SN; lia|]. destruct (Nat.eqb_spec (S j) (length p)) as [E2|E2]; [lia|]. cbn [l_c l_val]. split; [reflexivity|lia].
  - intros i l G. apply LB in G. destruct G as [[L G]|(j & Hj & -> & ->)]; [eapply ni_ne; eauto|]. subst p. discriminate.
  - intros q r0 G. apply in_app_or in G. destruct G as [G|[E|[]]].
    + destruct (ni_all _ _ _ H q r0 G) as (i & s & A & B & C). exists i, s. auto.
    + injection E as <- <-. exists (N + (length p - 1))%nat. eexists. rewrite LN, SN by lia. split; [replace (S (length p - 1)) with (length p) by lia; rewrite firstn_all; reflexivity|]. split; [reflexivity|].
      destruct (Nat.eqb_spec (S (length p - 1)) (length p)); [|lia]. cbn [l_val]. lia.
  - intros i s l G1 G2 HV HF. apply ST in G1. apply LB in G2. destruct G1 as [[L1 G1]|(j & Hj & -> & ->)], G2 as [[L2 G2]|(j' & Hj' & E' & ->)]; try lia.
    + destruct (ni_first _ _ _ H i s l G1 G2 HV) as (a & b0 & E & F).
      { intros j s' Hj A B C. apply (HF j s' Hj (SO _ _ A) B). apply LO, C. }
      exists a, (b0 ++ [(p, r)]). split; [rewrite E, <- app_assoc; reflexivity|exact F].
    + assert (j' = j) as -> by lia. destruct (Nat.eqb_spec (S j) (length p)) as [E|NE]; cbn [l_c l_val l_map] in *; [|lia].
      rewrite E, firstn_all in *. exists done, []. split; [reflexivity|]. intros G. apply in_map_iff in G. destruct G as ((q & r0) & E2 & G). cbn in E2. subst q.
      destruct (ni_all _ _ _ H p r0 G) as (i & s & A & B & C). apply (HF i s); [|apply SO, B|exact C|apply LO, A]. assert (i < length (n_states n))%nat by (apply nth_error_Some; congruence). fold N in H0. lia.
Qed.
Lemma NI_capa n labs done c : NI n labs done -> NI (mkN (n_start n) (n_states n) (n_alpha n) c) labs done.
Proof. intros H. destruct H. constructor; assumption. Qed.
Lemma NI_empty c : NI (mkN [] [] [] c) [] [].
Proof.
  constructor; cbn [n_start n_states n_alpha]; intros; try reflexivity; try contradiction;
    try (match goal with H : nth_error [] ?i = Some _ |- _ => destruct i; discriminate H end).
  split; [contradiction|]. intros (j & _ & E). destruct j; discriminate.
Qed.
Lemma add_all ms : forall n labs done, NI n labs done -> Forall (fun m => fst m <> [] /\ byte_string (fst m)) ms -> Forall (fun m : list Z * list Z => (length (fst m) <= 382)%nat) ms ->
  (128 <= n_capa n)%nat -> (S (length (n_states n)) < n_capa n)%nat -> exists n' labs', add_patterns n ms = Some n' /\ NI n' labs' (done ++ ms).
Proof.
  induction ms as [|[p r] ms IH]; intros n labs done H H1 H2 HC HS; [exists n, labs; rewrite app_nil_r; auto|].
  inversion H1 as [|? ? [Hp Hb] H1']; subst. inversion H2 as [|? ? Hl H2']; subst. cbn [fst] in *. cbn [add_patterns]. unfold add_pattern. cbn [fst snd].
  set (N := length (n_states n)) in *.
  assert (G : exists capa, (if (n_capa n <=? S N + length p + 1)%nat then (n_capa n * 4)%nat else n_capa n) = capa /\ (128 <= capa)%nat /\ (S N + length p + 1 < capa)%nat).
  { eexists. split; [reflexivity|]. destruct (Nat.leb_spec (n_capa n) (S N + length p + 1)); lia. }
  destruct G as (capa & -> & C1 & C2). destruct (Nat.ltb_spec capa (S N + length p)); [lia|]. destruct p as [|b p']; [congruence|]. cbn [obind].
  destruct (IH (mkN (n_start n ++ [(b, S N)]) (n_states n ++ letters (S N) (b :: p') r (length (b :: p'))) (n_alpha n ++ b :: p') capa) (labs ++ prefs (b :: p')) (done ++ [(b :: p', r)])) as (n' & labs' & E & G).
  - apply (NI_capa _ _ _ capa) in H. exact (NI_new _ _ _ (b :: p') r b p' H eq_refl Hb).
  - exact H1'. - exact H2'. - exact C1.
  - cbn [n_states n_capa]. rewrite app_length, letters_len. fold N. lia.
  - exists n', labs'. split; [exact E|]. rewrite <- app_assoc in G. exact G.
Qed.

(* ----- runs of the automaton ----- *)
Section Run.
  Variables (n : nfa) (labs : list (list Z)) (done : list (list Z * list Z)).
  Hypothesis HN : NI n labs done.
  Definition size : nat := S (length (n_states n)).
  (* the states after w: the labels that w ends with *)
  Definition B (w : list Z) (b : bset) : Prop := length b = size /\ forall k, nth k b false = true <-> exists j l, k = S j /\ nth_error labs j = Some l /\ suffix l w.
  Lemma B_empty : B [] (empty_set size).
  Proof.
    split; [apply repeat_length|]. intros k. unfold empty_set. rewrite nth_repeat_false. split; [discriminate|]. intros (j & l & _ & G & u & E).
    apply (ni_ne _ _ _ HN) in G. symmetry in E. apply app_eq_nil in E. destruct E as [_ ->]. congruence.
  Qed.
  Lemma step_fold c l : forall acc, length acc = size -> let r := fold_left (fun acc i => match state_at n i with Some s => set_states acc (lstate_next s c) | None => acc end) l acc in
    length r = size /\ forall k, (k < size)%nat -> nth k r false = true <-> nth k acc false = true \/ exists i s, In i l /\ state_at n i = Some s /\ In k (lstate_next s c).
  Proof.
    induction l as [|i l IH]; intros acc Ha; cbn [fold_left].
    - split; [exact Ha|]. intros k Hk. split; [auto|]. intros [H|(i & s & [] & _)]. exact H.
    - match goal with |- context [fold_left _ l ?a] => set (acc' := a) end.
      assert (Ha' : length acc' = size) by (unfold acc'; destruct (state_at n i); [rewrite set_states_len|]; exact Ha).
      destruct (IH acc' Ha') as [L G]. split; [exact L|]. intros k Hk. rewrite G by exact Hk. unfold acc'. destruct (state_at n i) as [s|] eqn:E.
      + rewrite set_states_nth by lia. split.
        * intros [[H|H]|(i' & s' & A & A2 & A3)]; [left; exact H|right; exists i, s; cbn; auto|right; exists i', s'; cbn; auto].
        * intros [H|(i' & s' & [<-|A] & A2 & A3)]; [auto| |right; eauto]. left. right. congruence.
      + split; [intros [H|(i' & s' & A & A2 & A3)]; [auto|right; exists i', s'; cbn; auto]|]. intros [H|(i' & s' & [<-|A] & A2 & A3)]; [auto|congruence|right; eauto].
  Qed.
  Lemma suffix_snoc l c w c' : suffix (l ++ [c]) (w ++ [c']) <-> c = c' /\ suffix l w.
  Proof.
    split.
    - intros [u E]. rewrite app_assoc in E. apply app_inj_tail in E. destruct E as [-> ->]. split; [reflexivity|exists u; reflexivity].
    - intros [-> [u ->]]. exists u. apply app_assoc_reverse.
  Qed.
  Lemma step_ok w b c : 0 <= c -> B w b -> B (w ++ [c]) (step n b c).
  Proof.
    intros Hc [Lb Hb]. unfold step. fold size.
    assert (L0 : length (set_states (empty_set size) (start_next (n_start n) c)) = size) by (rewrite set_states_len; apply repeat_length).
    destruct (step_fold c (bits b) _ L0) as [L G]. split; [exact L|]. intros k.
    assert (K : (exists j l, k = S j /\ nth_error labs j = Some l /\ suffix l (w ++ [c])) -> (k < size)%nat).
    { intros (j & l & -> & E & _). unfold size. rewrite <- (ni_len _ _ _ HN). apply (proj1 (nth_error_Some labs j)) in E || idtac. assert (nth_error labs j <> None) by congruence. apply nth_error_Some in H. lia. }
    destruct (Nat.lt_ge_cases k size) as [Hk|Hk].
    2:{ rewrite nth_overflow by lia. split; [discriminate|]. intros H. apply K in H. lia. }
    rewrite G by exact Hk. rewrite set_states_nth by (unfold empty_set; rewrite repeat_length; exact Hk). unfold empty_set. rewrite nth_repeat_false. unfold start_next. split.
    - intros [[H|H]|(i & s & H1 & H2 & H3)]; [discriminate| |].
      + apply in_map_iff in H. destruct H as ((c' & k') & E & H). cbn in E. subst k'. apply filter_In in H. destruct H as [H E]. cbn in E. apply Z.eqb_eq in E. subst c'.
        apply (ni_start _ _ _ HN) in H. destruct H as (j & -> & H). exists j, [c]. split; [reflexivity|]. split; [exact H|]. exists w. reflexivity.
      + apply in_bits in H1. apply Hb in H1. destruct H1 as (j & l & -> & E1 & Sf). cbn [state_at] in H2. unfold lstate_next in H3.
        destruct (Z.eqb_spec c (l_c s)) as [Ec|]; [|destruct H3]. destruct H3 as [H3|[]].
        destruct (ni_fwd _ _ _ HN j s l H2 E1) as [(C & _ & V & F)|(C & _)]; [|lia]. rewrite V, Nat2Z.id in H3. subst k.
        exists (S j), (l ++ [l_c s]). split; [reflexivity|]. split; [exact F|]. apply suffix_snoc. auto.
    - intros (j & l & -> & E & Sf). pose proof (ni_ne _ _ _ HN _ _ E) as Nl. destruct (exists_last Nl) as (l0 & c0 & ->). apply suffix_snoc in Sf. destruct Sf as [-> Sf].
      destruct l0 as [|x l0].
      + left. right. apply in_map_iff. exists (c, S j). split; [reflexivity|]. apply filter_In. cbn [fst]. split; [|apply Z.eqb_refl]. apply (ni_start _ _ _ HN). exists j. auto.
      + right. destruct (ni_back _ _ _ HN _ _ _ E) as (j' & s & -> & A & A2 & A3 & A4); [discriminate|]. exists (S j'), s. split; [|split; [exact A2|]].
        * apply in_bits. apply Hb. exists j', (x :: l0). auto.
        * unfold lstate_next. rewrite <- A3, Z.eqb_refl, A4. left. apply Nat2Z.id.
  Qed.
  (* a byte that no pattern has leads back to the start *)
  Lemma step_out b c : 0 <= c -> ~ In c (n_alpha n) -> step n b c = empty_set size.
  Proof.
    intros Hc Ha. unfold step. fold size.
    replace (start_next (n_start n) c) with (@nil nat).
    - cbn [set_states fold_right]. generalize (empty_set size). intros acc. induction (bits b) as [|i l IH]; cbn [fold_left]; [reflexivity|].
      destruct (state_at n i) as [s|] eqn:E; [|exact IH]. unfold lstate_next. destruct (Z.eqb_spec c (l_c s)) as [Ec|]; [|exact IH]. exfalso.
      destruct i as [|j]; [discriminate E|]. cbn [state_at] in E. assert (Q : (j < length labs)%nat) by (rewrite (ni_len _ _ _ HN); apply nth_error_Some; congruence).
      destruct (nth_error labs j) as [l0|] eqn:E1; [|apply nth_error_None in E1; lia]. destruct (ni_fwd _ _ _ HN j s l0 E E1) as [(_ & C & _)|(C & _)]; [|lia]. congruence.
    - unfold start_next. symmetry. destruct (filter _ _) as [|[c' k] l] eqn:E; [reflexivity|]. exfalso. assert (In (c', k) (filter (fun p : Z * nat => fst p =? c) (n_start n))) as G by (rewrite E; left; reflexivity).
      apply filter_In in G. destruct G as [G Ec]. cbn in Ec. apply Z.eqb_eq in Ec. subst c'. apply (ni_alpha _ _ _ HN) in G. auto.
  Qed.

  (* the longest match *)
  Definition fin (i : nat) : option (nat * list Z) := match state_at n i with Some s => lstate_match s | None => None end.
  Lemma best_fold l : let r := fold_left (fun acc i => match state_at n i with
                          | Some s => match lstate_match s with Some (len, m) => if (fst acc <? len)%nat then (len, Some m) else acc | None => acc end
                          | None => acc end) l (O, None) in
    (r = (O, @None (list Z)) /\ (forall i len m, In i l -> fin i = Some (len, m) -> len = O)) \/
    (exists len m i l1 l2, r = (len, Some m) /\ l = l1 ++ i :: l2 /\ fin i = Some (len, m) /\ (0 < len)%nat /\ (forall i' len' m', In i' l1 -> fin i' = Some (len', m') -> (len' < len)%nat) /\
       (forall i' len' m', In i' l -> fin i' = Some (len', m') -> (len' <= len)%nat)).
  Proof.
    induction l as [|x l IH] using rev_ind; cbn zeta; [left; split; [reflexivity|intros ? ? ? []]|]. rewrite fold_left_app. cbn [fold_left].
    set (r := fold_left _ l (O, None)) in *. cbn zeta in IH.
    assert (E : forall o : option (nat * list Z), fin x = o -> match state_at n x with Some s => match lstate_match s with Some (len, m) => if (fst r <? len)%nat then (len, Some m) else r | None => r end | None => r end =
      match o with Some (len, m) => if (fst r <? len)%nat then (len, Some m) else r | None => r end).
    { intros o Ho. unfold fin in Ho. destruct (state_at n x) as [s|]; [rewrite Ho|subst o]; reflexivity. }
    rewrite (E _ eq_refl). clear E. destruct (fin x) as [[len m]|] eqn:F.
    - destruct (Nat.ltb_spec (fst r) len) as [L|L].
      + right. exists len, m, x, l, []. split; [reflexivity|]. split; [reflexivity|]. split; [exact F|]. split; [lia|].
        assert (Q : forall i' len' m', In i' l -> fin i' = Some (len', m') -> (len' < len)%nat).
        { intros i' len' m' A A2. destruct IH as [[E1 E2]|(len0 & m0 & i0 & l1 & l2 & E1 & _ & _ & _ & _ & E2)]; [rewrite (E2 _ _ _ A A2); lia|]. specialize (E2 _ _ _ A A2). rewrite E1 in L. cbn in L. lia. }
        split; [exact Q|]. intros i' len' m' A A2. apply in_app_or in A. destruct A as [A|[<-|[]]]; [specialize (Q _ _ _ A A2); lia|]. rewrite F in A2. injection A2 as <- <-. lia.
      + destruct IH as [[E1 E2]|(len0 & m0 & i0 & l1 & l2 & E1 & E3 & E4 & E5 & E6 & E2)].
        * left. split; [exact E1|]. intros i' len' m' A A2. apply in_app_or in A. destruct A as [A|[<-|[]]]; [eauto|]. rewrite F in A2. injection A2 as <- <-. rewrite E1 in L. cbn in L. lia.
        * right. exists len0, m0, i0, l1, (l2 ++ [x]). split; [exact E1|]. split; [rewrite E3, <- app_assoc; reflexivity|]. split; [exact E4|]. split; [exact E5|]. split; [exact E6|].
          intros i' len' m' A A2. apply in_app_or in A. destruct A as [A|[<-|[]]]; [eauto|]. rewrite F in A2. injection A2 as <- <-. rewrite E1 in L. cbn in L. lia.
    - destruct IH as [[E1 E2]|(len0 & m0 & i0 & l1 & l2 & E1 & E3 & E4 & E5 & E6 & E2)].
      + left. split; [exact E1|]. intros i' len' m' A A2. apply in_app_or in A. destruct A as [A|[<-|[]]]; [eauto|congruence].
      + right. exists len0, m0, i0, l1, (l2 ++ [x]). split; [exact E1|]. split; [rewrite E3, <- app_assoc; reflexivity|]. split; [exact E4|]. split; [exact E5|]. split; [exact E6|].
        intros i' len' m' A A2. apply in_app_or in A. destruct A as [A|[<-|[]]]; [eauto|congruence].
  Qed.
  Lemma fin_ok i len m : fin i = Some (len, m) -> exists j s p, i = S j /\ nth_error (n_states n) j = Some s /\ nth_error labs j = Some p /\ l_val s < 0 /\ len = length p /\ m = l_map s /\ In (p, m) done.
  Proof.
    unfold fin. destruct i as [|j]; cbn [state_at]; [discriminate|]. destruct (nth_error (n_states n) j) as [s|] eqn:E; [|discriminate]. unfold lstate_match.
    destruct (Z.ltb_spec (l_val s) 0) as [L|]; [|discriminate]. intros H. injection H as <- <-. assert (Q : (j < length labs)%nat) by (rewrite (ni_len _ _ _ HN); apply nth_error_Some; congruence).
    destruct (nth_error labs j) as [p|] eqn:E1; [|apply nth_error_None in E1; lia]. destruct (ni_fwd _ _ _ HN j s p E E1) as [(_ & _ & V & _)|(_ & D & V)]; [lia|].
    exists j, s, p. split; [reflexivity|]. split; [exact E|]. split; [exact E1|]. split; [exact L|]. split; [lia|]. auto.
  Qed.
  Lemma bits_sorted b l1 i l2 : bits b = l1 ++ i :: l2 -> forall k, In k (bits b) -> (k < i)%nat -> In k l1.
  Proof.
    unfold bits. intros E. assert (S0 : Sorted.StronglySorted lt (l1 ++ i :: l2)).
    { rewrite <- E. generalize 0%nat as a. generalize (length b) as m. generalize (fun i => nth i b false) as f. intros f m. clear E. induction m as [|m IH]; intros a; [constructor|]. cbn [seq filter].
      destruct (f a); [|apply IH]. constructor; [apply IH|]. apply Forall_forall. intros x Hx. apply filter_In in Hx. destruct Hx as [Hx _]. apply in_seq in Hx. lia. }
    rewrite E. clear E. intros k Hk Lt. apply in_app_or in Hk. destruct Hk as [Hk|[->|Hk]]; [exact Hk|lia|]. exfalso.
    induction l1 as [|y l1 IH]; cbn in S0; [|apply IH; inversion S0; assumption]. inversion S0 as [|? ? _ F]; subst. rewrite Forall_forall in F. specialize (F _ Hk). lia.
  Qed.
  Lemma best_ok w b : B w b ->
    (snd (best n b) = None /\ ~ ends done w) \/
    (exists u p m, best n b = (length p, Some m) /\ w = u ++ p /\ first_rep done p m /\ (0 < length p)%nat /\ forall p' r' u', In (p', r') done -> w = u' ++ p' -> (length p' <= length p)%nat).
  Proof.
    intros [Lb Hb]. assert (A : forall p r, In (p, r) done -> suffix p w -> exists i m, In i (bits b) /\ fin i = Some (length p, m)).
    { intros p r Hi Hs. destruct (ni_all _ _ _ HN p r Hi) as (j & s & E1 & E2 & V). exists (S j), (l_map s). split; [apply in_bits, Hb; exists j, p; auto|].
      unfold fin. cbn [state_at]. rewrite E2. unfold lstate_match. destruct (Z.ltb_spec (l_val s) 0); [|lia]. destruct (ni_fwd _ _ _ HN j s p E2 E1) as [(_ & _ & V' & _)|(_ & _ & V')]; [lia|]. f_equal. f_equal. lia. }
    assert (NE : forall p r, In (p, r) done -> (0 < length p)%nat).
    { intros p r Hi. destruct (ni_all _ _ _ HN p r Hi) as (j & s & E1 & _). apply (ni_ne _ _ _ HN) in E1. destruct p; [congruence|cbn; lia]. }
    unfold best. destruct (best_fold (bits b)) as [[E1 E2]|(len & m & i & l1 & l2 & E1 & E3 & E4 & E5 & E6 & E2)]; cbn zeta in *.
    - left. split; [rewrite E1; reflexivity|]. intros (p & r & u & Hi & ->). destruct (A p r Hi) as (i & m & I1 & I2); [exists u; reflexivity|]. specialize (E2 _ _ _ I1 I2). specialize (NE _ _ Hi). lia.
    - right. destruct (fin_ok _ _ _ E4) as (j & s & p & -> & N1 & N2 & V & -> & -> & D).
      assert (I0 : In (S j) (bits b)) by (rewrite E3; apply in_or_app; right; left; reflexivity). pose proof I0 as I0'. apply in_bits in I0'. apply Hb in I0'. destruct I0' as (j' & l & Ej & Nl & [u Hu]). injection Ej as <-. rewrite N2 in Nl. injection Nl as <-.
      exists u, p, (l_map s). split; [exact E1|]. split; [exact Hu|]. split; [|split; [exact E5|]].
      + apply (ni_first _ _ _ HN j s p N1 N2 V). intros k s' Lt S1 V' Lk.
        assert (Q : In (S k) l1). { apply (bits_sorted b l1 (S j) l2 E3); [|lia]. apply in_bits, Hb. exists k, p. split; [reflexivity|]. split; [exact Lk|]. exists u. exact Hu. }
        assert (F : fin (S k) = Some (length p, l_map s')). { unfold fin. cbn [state_at]. rewrite S1. unfold lstate_match. destruct (Z.ltb_spec (l_val s') 0); [|lia]. destruct (ni_fwd _ _ _ HN k s' p S1 Lk) as [(_ & _ & V2 & _)|(_ & _ & V2)]; [lia|]. f_equal. f_equal. lia. }
        specialize (E6 _ _ _ Q F). lia.
      + intros p' r' u' Hi Hw. destruct (A p' r' Hi) as (i & m & I1 & I2); [exists u'; exact Hw|]. exact (E2 _ _ _ I1 I2).
  Qed.
End Run.

(* ----- the subset construction ----- *)
Fixpoint allb (k : nat) : list bset := match k with O => [[]] | S k' => map (cons true) (allb k') ++ map (cons false) (allb k') end.
Lemma allb_in b : In b (allb (length b)).
Proof. induction b as [|[] b IH]; cbn [length allb]; [left; reflexivity| |]; apply in_or_app; [left|right]; apply in_map, IH. Qed.
Lemma allb_len k : length (allb k) = (2 ^ k)%nat.
Proof. induction k as [|k IH]; [reflexivity|]. change (allb (S k)) with (map (cons true) (allb k) ++ map (cons false) (allb k)). rewrite app_length, !map_length. cbn [Nat.pow]. unfold bset in *. lia. Qed.
Lemma beqb_eq a b : beqb a b = true <-> a = b.
Proof. unfold beqb. destruct (list_eq_dec _ a b); split; congruence. Qed.
Lemma lookup_some b m i : lookup b m = Some i -> In (b, i) m.
Proof.
  induction m as [|[b' j] m IH]; cbn [lookup]; [discriminate|]. destruct (beqb b b') eqn:E; [apply beqb_eq in E; intros H; left; congruence|]. intros H. right. auto.
Qed.
Lemma lookup_none b m : lookup b m = None -> ~ In b (map fst m).
Proof.
  induction m as [|[b' j] m IH]; cbn [lookup map fst In]; [auto|]. destruct (beqb b b') eqn:E; [discriminate|]. intros H [G|G]; [|exact (IH H G)].
  subst b'. assert (beqb b b = true) by (apply beqb_eq; reflexivity). congruence.
Qed.
Section Sub.
  Variables (n : nfa).
  Notation N := (S (length (n_states n))).
  Hypothesis Hout : forall b c, 0 <= c -> ~ In c (n_alpha n) -> step n b c = empty_set N.
  Hypothesis Hlen : forall b c, length (step n b c) = N.
  Record DI (st : dfa) : Prop := {
    di_nd : NoDup (map fst (fst st));
    di_w : forall b i, In (b, i) (fst st) -> length b = N;
    di_ix : map snd (fst st) = seq 0 (length (snd st));
    di_ds : forall b i, In (b, i) (fst st) -> exists d, nth_error (snd st) i = Some d /\ length (d_next d) = 256%nat /\ d_long d = fst (best n b) /\ d_map d = snd (best n b);
    di_hd : fst st <> [] -> In (empty_set N, O) (fst st)
  }.
  Definition complete (st : dfa) (b : bset) (i : nat) : Prop :=
    exists d, nth_error (snd st) i = Some d /\ forall c, 0 <= c < 256 -> exists j, nth_error (d_next d) (Z.to_nat c) = Some j /\ In (step n b c, j) (fst st).
  Definition ext (st st' : dfa) : Prop := (exists more, fst st' = fst st ++ more) /\ forall i, (i < length (snd st))%nat -> nth_error (snd st') i = nth_error (snd st) i.
  Lemma di_lt st b i : DI st -> In (b, i) (fst st) -> (i < length (snd st))%nat.
  Proof. intros H G. apply (in_map snd) in G. rewrite (di_ix _ H) in G. apply in_seq in G. cbn in G. lia. Qed.
  Lemma di_count st : DI st -> (length (fst st) <= 2 ^ N)%nat.
  Proof.
    intros H. rewrite <- allb_len, <- (map_length fst). apply NoDup_incl_length; [apply (di_nd _ H)|]. intros b G. apply in_map_iff in G. destruct G as ((b' & i) & E & G). cbn in E. subst b'.
    rewrite <- (di_w _ H _ _ G). apply allb_in.
  Qed.
  Lemma ext_refl st : ext st st. Proof. split; [exists []; rewrite app_nil_r; reflexivity|auto]. Qed.
  Lemma ext_in st st' e : ext st st' -> In e (fst st) -> In e (fst st'). Proof. intros [[m ->] _] H. apply in_or_app. auto. Qed.
  Lemma ext_len st st' : DI st -> DI st' -> ext st st' -> (length (fst st) <= length (fst st'))%nat /\ (length (snd st) <= length (snd st'))%nat.
  Proof.
    intros H H' [[m E] _]. pose proof (f_equal (@length _) (di_ix _ H)) as A. pose proof (f_equal (@length _) (di_ix _ H')) as A'. rewrite map_length, seq_length in A, A'. rewrite <- A, <- A', E, app_length. lia.
  Qed.
  Lemma complete_ext st st' b i : DI st -> In (b, i) (fst st) -> ext st st' -> complete st b i -> complete st' b i.
  Proof.
    intros H Hi E (d & D1 & D2). exists d. split; [rewrite (proj2 E); [exact D1|eapply di_lt; eauto]|]. intros c Hc. destruct (D2 c Hc) as (j & J1 & J2). exists j. split; [exact J1|]. eapply ext_in; eauto.
  Qed.
  Lemma alpha_in c : In c (alphabet n) <-> 0 <= c < 256 /\ In c (n_alpha n).
  Proof.
    unfold alphabet. rewrite filter_In. unfold bytes. rewrite in_map_iff. unfold zin. rewrite existsb_exists. split.
    - intros [(k & <- & G) (x & X & E)]. apply in_seq in G. apply Z.eqb_eq in E. subst x. split; [lia|exact X].
    - intros [G X]. split; [exists (Z.to_nat c); split; [lia|]; apply in_seq; lia|]. exists c. split; [exact X|apply Z.eqb_refl].
  Qed.
  Lemma process_ok : forall fuel b st, DI st -> length b = N -> (fst st = [] -> b = empty_set N) -> (2 ^ N < fuel + length (fst st))%nat ->
    exists i st', process fuel n b st = Some (i, st') /\ DI st' /\ ext st st' /\ In (b, i) (fst st') /\ forall b' i', In (b', i') (fst st') -> ~ In (b', i') (fst st) -> complete st' b' i'.
  Proof.
    induction fuel as [|fuel IH]; intros b st H Lb H0 Hf.
    { exfalso. pose proof (di_count st H). rewrite Nat.add_0_l in Hf. apply (Nat.lt_irrefl (length (fst st))). eapply Nat.le_lt_trans; eassumption. }
    cbn [process]. destruct (lookup b (fst st)) as [i|] eqn:EL.
    { exists i, st. split; [reflexivity|]. split; [exact H|]. split; [apply ext_refl|]. split; [apply lookup_some, EL|]. intros; contradiction. }
    set (i := length (snd st)). set (st0 := (fst st ++ [(b, i)], snd st ++ [mkD (repeat O 256) (fst (best n b)) (snd (best n b))])).
    pose proof (f_equal (@length _) (di_ix _ H)) as IX. rewrite map_length, seq_length in IX. fold i in IX.
    assert (D0 : DI st0).
    { constructor; unfold st0; cbn [fst snd].
      - rewrite map_app. apply Permutation_NoDup with (l := b :: map fst (fst st)); [apply Permutation_cons_append|]. constructor; [apply lookup_none, EL|apply (di_nd _ H)].
      - intros b' i' G. apply in_app_or in G. destruct G as [G|[E|[]]]; [eapply di_w; eauto|]. congruence.
      - rewrite map_app, app_length, (di_ix _ H). cbn [length map snd]. rewrite Nat.add_1_r, seq_S. reflexivity.
      - intros b' i' G. apply in_app_or in G. destruct G as [G|[E|[]]].
        + destruct (di_ds _ H _ _ G) as (d & D & E). exists d. split; [rewrite nth_error_app1 by (eapply di_lt; eauto); exact D|exact E].
        + injection E as <- <-. eexists. split; [rewrite nth_error_app2 by (unfold i; lia); unfold i; rewrite Nat.sub_diag; reflexivity|]. cbn [d_next d_long d_map]. rewrite repeat_length. auto.
      - intros _. destruct (fst st) as [|e l] eqn:E.
        + left. f_equal; [apply H0; reflexivity|cbn in IX; auto].
        + apply in_or_app. left. rewrite <- E. apply (di_hd _ H). rewrite E. discriminate. }
    (* the loop over the alphabet *)
    assert (LOOP : forall L seen s, (forall c, In c L -> 0 <= c < 256) -> DI s -> (exists more, fst s = fst st0 ++ more) ->
      (forall k, (k < length (snd st))%nat -> nth_error (snd s) k = nth_error (snd st) k) ->
      (exists d, nth_error (snd s) i = Some d /\ forall c, 0 <= c < 256 -> exists j, nth_error (d_next d) (Z.to_nat c) = Some j /\ ((In c seen /\ In (step n b c, j) (fst s)) \/ (~ In c seen /\ j = O))) ->
      (forall b' i', In (b', i') (fst s) -> ~ In (b', i') (fst st0) -> complete s b' i') ->
      exists s', fold_left (fun o c => do s <- o; do r <- process fuel n (step n b c) s; Some (fst (snd r), set_next (snd (snd r)) i c (fst r))) L (Some s) = Some s' /\
        DI s' /\ (exists more, fst s' = fst st0 ++ more) /\ (forall k, (k < length (snd st))%nat -> nth_error (snd s') k = nth_error (snd st) k) /\
        (exists d, nth_error (snd s') i = Some d /\ forall c, 0 <= c < 256 -> exists j, nth_error (d_next d) (Z.to_nat c) = Some j /\ ((In c (L ++ seen) /\ In (step n b c, j) (fst s')) \/ (~ In c (L ++ seen) /\ j = O))) /\
        (forall b' i', In (b', i') (fst s') -> ~ In (b', i') (fst st0) -> complete s' b' i')).
    { induction L as [|c L IHL]; intros seen s HL Ds [more Em] Ho (d & Hd & Hn) Hc; [exists s; cbn [fold_left app]; eauto 10|].
      cbn [fold_left obind].
      assert (Bi : In (b, i) (fst s)) by (rewrite Em; apply in_or_app; left; unfold st0; cbn [fst]; apply in_or_app; right; left; reflexivity).
      assert (Hi : (i < length (snd s))%nat) by (eapply di_lt; eauto).
      destruct (IH (step n b c) s Ds (Hlen b c)) as (j & s1 & E1 & D1 & X1 & J1 & C1).
      { intros E. rewrite E in Bi. destruct Bi. }
      { rewrite Em. unfold st0. cbn [fst]. rewrite !app_length. cbn [length]. lia. }
      rewrite E1. cbn [obind fst snd].
      assert (Hd1 : nth_error (snd s1) i = Some d) by (rewrite (proj2 X1) by exact Hi; exact Hd).
      set (s2 := (fst s1, set_next (snd s1) i c j)).
      assert (SN : snd s2 = upd (snd s1) i (mkD (upd (d_next d) (Z.to_nat c) j) (d_long d) (d_map d))) by (unfold s2, set_next; cbn [snd]; rewrite Hd1; reflexivity).
      assert (Hi1 : (i < length (snd s1))%nat) by (apply nth_error_Some; congruence).
      assert (OT : forall k, k <> i -> nth_error (snd s2) k = nth_error (snd s1) k) by (intros k Hk; rewrite SN, nth_error_upd; destruct (Nat.eqb_spec i k); [congruence|reflexivity]).
      assert (AT : nth_error (snd s2) i = Some (mkD (upd (d_next d) (Z.to_nat c) j) (d_long d) (d_map d))).
      { rewrite SN, nth_error_upd, Nat.eqb_refl. destruct (Nat.ltb_spec i (length (snd s1))); [reflexivity|lia]. }
      assert (L2 : length (snd s2) = length (snd s1)) by (rewrite SN; apply upd_length).
      assert (D2 : DI s2).
      { destruct D1 as [d1 d2 d3 d4 d5]. constructor.
        - exact d1. - exact d2. - rewrite L2. exact d3.
        - intros b' i' G. destruct (d4 b' i' G) as (x & X & Y). destruct (Nat.eq_dec i' i) as [->|Ne]; [|exists x; rewrite OT by exact Ne; auto].
          rewrite Hd1 in X. injection X as <-. eexists. split; [exact AT|]. cbn [d_next d_long d_map]. rewrite upd_length. exact Y.
        - exact d5. }
      assert (F2 : fst s2 = fst s1) by reflexivity.
      destruct X1 as [[m1 Em1] XU].
      destruct (IHL (c :: seen) s2) as (s' & E' & D' & M' & O' & N' & C').
      - intros c' G. apply HL. right. exact G.
      - exact D2.
      - exists (more ++ m1). rewrite F2, Em1, Em, app_assoc. reflexivity.
      - intros k Hk. rewrite OT by (unfold i; lia). rewrite XU by (unfold i in Hi; lia). apply Ho, Hk.
      - eexists. split; [exact AT|]. cbn [d_next]. intros c' Hc'. destruct (Hn c' Hc') as (j' & J & Q).
        assert (Hb1 : 0 <= c < 256) by (apply HL; left; reflexivity).
        destruct (Z.eq_dec c' c) as [->|Ne].
        + exists j. split; [rewrite nth_error_upd, Nat.eqb_refl; destruct (Nat.ltb_spec (Z.to_nat c) (length (d_next d))) as [|G]; [reflexivity|apply nth_error_None in G; congruence]|].
          left. split; [left; reflexivity|]. rewrite F2. exact J1.
        + exists j'. split; [rewrite nth_error_upd; destruct (Nat.eqb_spec (Z.to_nat c) (Z.to_nat c')); [lia|exact J]|]. rewrite F2. cbn [In].
          destruct Q as [[Q1 Q2]|[Q1 Q2]]; [left; split; [auto|rewrite Em1; apply in_or_app; auto]|right; split; [intros [G|G]; [congruence|auto]|exact Q2]].
      - intros b' i' G Ng. assert (G1 : complete s1 b' i').
        { destruct (in_dec (fun x y : bset * nat => ltac:(decide equality; [apply Nat.eq_dec|apply (list_eq_dec Bool.bool_dec)])) (b', i') (fst s)) as [Q|Q].
          - apply (complete_ext s); [exact Ds|exact Q|split; [exists m1; exact Em1|exact XU]|]. apply Hc; assumption.
          - apply C1; [exact G|exact Q]. }
        destruct G1 as (x & X & Y). assert (Ne : i' <> i).
        { intros ->. apply Ng. assert (b' = b) as ->; [|unfold st0; cbn [fst]; apply in_or_app; right; left; reflexivity].
          (* two entries with the same index *)
          assert (I1 : In (b, i) (fst s1)) by (rewrite Em1; apply in_or_app; auto). rewrite F2 in G.
          assert (ND : NoDup (map snd (fst s1))) by (rewrite (di_ix _ D1); apply seq_NoDup).
          clear - I1 G ND. induction (fst s1) as [|[b0 i0] l IHl]; [destruct G|]. cbn in ND. inversion ND as [|? ? N1 N2]; subst. destruct I1 as [E1|I1], G as [E2|G].
          - congruence. - injection E1 as -> ->. exfalso. apply N1. apply (in_map snd) in G. exact G. - injection E2 as -> ->. exfalso. apply N1. apply (in_map snd) in I1. exact I1. - auto. }
        exists x. rewrite OT by exact Ne. split; [exact X|exact Y].
      - exists s'. split; [exact E'|]. split; [exact D'|]. split; [exact M'|]. split; [exact O'|]. split; [|exact C'].
        destruct N' as (d' & N1 & N2). exists d'. split; [exact N1|]. intros c' Hc'. destruct (N2 c' Hc') as (j' & J & Q). exists j'. split; [exact J|]. cbn [app In].
        destruct Q as [[Q1 Q2]|[Q1 Q2]]; [left|right]; (split; [|exact Q2]).
        + apply in_app_or in Q1. destruct Q1 as [Q1|[Q1|Q1]]; [right; apply in_or_app; auto|auto|right; apply in_or_app; auto].
        + intros [G|G]; apply Q1; apply in_or_app; [right; left; exact G|]. apply in_app_or in G. destruct G; [auto|right; right; assumption]. }
    destruct (LOOP (rev (alphabet n)) [] st0) as (s' & E' & D' & (more & M') & O' & (d & N1 & N2) & C').
    - intros c G. apply in_rev in G. apply alpha_in in G. apply G.
    - exact D0. - exists []. rewrite app_nil_r. reflexivity.
    - intros k Hk. unfold st0. cbn [snd]. apply nth_error_app1, Hk.
    - eexists. split; [unfold st0; cbn [snd]; unfold i; rewrite nth_error_app2, Nat.sub_diag by lia; reflexivity|]. cbn [d_next]. intros c Hc. exists O. split; [|right; split; [intros []|reflexivity]].
      apply (nth_error_repeat O). lia.
    - intros b' i' G Ng. contradiction.
    - exists i, s'. match goal with |- context [@fold_left ?A ?B ?f ?l ?a] => replace (@fold_left A B f l a) with (Some s') by (symmetry; exact E') end. cbn [obind]. split; [reflexivity|]. split; [exact D'|].
      split; [split; [exists ((b, i) :: more); rewrite M'; unfold st0; cbn [fst]; rewrite <- app_assoc; reflexivity|exact O']|].
      assert (Bi : In (b, i) (fst s')) by (rewrite M'; unfold st0; cbn [fst]; apply in_or_app; left; apply in_or_app; right; left; reflexivity).
      split; [exact Bi|]. intros b' i' G Ng.
      destruct (in_dec (fun x y : bset * nat => ltac:(decide equality; [apply Nat.eq_dec|apply (list_eq_dec Bool.bool_dec)])) (b', i') (fst st0)) as [Q|Q]; [|apply C'; assumption].
      unfold st0 in Q. cbn [fst] in Q. apply in_app_or in Q. destruct Q as [Q|[Q|[]]]; [contradiction|]. injection Q as <- <-.
      exists d. split; [exact N1|]. intros c Hc. destruct (N2 c Hc) as (j & J & [[_ Q]|[Q1 ->]]); exists j || exists O; (split; [exact J|]); [exact Q|].
      rewrite Hout; [apply (di_hd _ D'); intros E; rewrite E in Bi; destruct Bi|lia|]. intros G2. apply Q1. rewrite app_nil_r. apply -> in_rev. apply alpha_in. auto.
  Qed.
End Sub.

(* ----- mapping ----- *)
Lemma first_last ms p r : first_rep (rev ms) p r -> replacement ms p r.
Proof.
  intros (a & b & E & Na). exists (rev b), (rev a). split.
  - rewrite <- (rev_involutive ms), E, rev_app_distr. cbn [rev]. rewrite <- app_assoc. reflexivity.
  - intros r' G. apply Na. apply in_rev in G. apply (in_map fst) in G. exact G.
Qed.
Lemma ends_rev ms w : ends (rev ms) w <-> ends ms w.
Proof. split; intros (p & r & u & H & E); exists p, r, u; (split; [|exact E]); [apply in_rev, H|apply -> in_rev; exact H]. Qed.
Section Map.
  Variables (n : nfa) (labs : list (list Z)) (ms : list (list Z * list Z)) (ds : list dstate) (dm : list (bset * nat)).
  Hypothesis HN : NI n labs (rev ms).
  Notation N := (S (length (n_states n))).
  Hypothesis H0 : In (empty_set N, O) dm.
  Hypothesis HD : forall b i, In (b, i) dm -> exists d, nth_error ds i = Some d /\ d_long d = fst (best n b) /\ d_map d = snd (best n b) /\
    forall c, 0 <= c < 256 -> exists j, nth_error (d_next d) (Z.to_nat c) = Some j /\ In (step n b c, j) dm.
  Definition quiet (w : list Z) : Prop := forall w1 v, w = w1 ++ v -> ~ ends ms w1.
  Lemma quiet_nil : quiet [].
  Proof.
    intros w1 v E (p & r & u & Hi & Ew). symmetry in E. apply app_eq_nil in E. destruct E as [-> _]. symmetry in Ew. apply app_eq_nil in Ew. destruct Ew as [_ ->].
    apply in_rev in Hi. destruct (ni_all _ _ _ HN _ _ Hi) as (j & s & E1 & _). exact (ni_ne _ _ _ HN _ _ E1 eq_refl).
  Qed.
  Lemma quiet_snoc w c : quiet w -> ~ ends ms (w ++ [c]) -> quiet (w ++ [c]).
  Proof.
    intros H G w1 v E. destruct v as [|x v] using rev_ind; [rewrite app_nil_r in E; subst w1; exact G|]. clear IHv. rewrite app_assoc in E. apply app_inj_tail in E. destruct E as [E _]. exact (H _ _ E).
  Qed.
  Lemma map_loop_ok room : forall s w pre q b, Forall (fun c => 0 <= c < 256) s -> B n labs w b -> In (b, q) dm -> quiet w -> (length (pre ++ w) <= room)%nat ->
    exists u v full out, map_loop ds room q s (pre ++ w) = Some out /\ s = u ++ v /\ rewrites ms (w ++ u) full /\ out = firstn room (pre ++ full) /\ (v = [] \/ length out = room).
  Proof.
    induction s as [|c s IH]; intros w pre q b Hs Hb Hq Qw Hl.
    { exists [], [], w, (pre ++ w). cbn [map_loop]. split; [reflexivity|]. split; [reflexivity|]. split; [rewrite app_nil_r; apply rw_copy; exact Qw|]. split; [symmetry; apply firstn_all2; exact Hl|auto]. }
    inversion Hs as [|? ? Hc Hs']; subst. cbn [map_loop]. destruct (Nat.ltb_spec (length (pre ++ w)) room) as [Hr|Hr].
    2:{ exists [], (c :: s), w, (pre ++ w). split; [reflexivity|]. split; [reflexivity|]. split; [rewrite app_nil_r; apply rw_copy; exact Qw|]. split; [symmetry; apply firstn_all2; exact Hl|right; lia]. }
    destruct (HD _ _ Hq) as (d & D1 & _ & _ & D4). rewrite D1. cbn [obind]. destruct (D4 c Hc) as (q' & Q1 & Q2). rewrite Q1. cbn [obind].
    destruct (HD _ _ Q2) as (d' & E1 & E2 & E3 & _). rewrite E1. cbn [obind].
    assert (Hb' : B n labs (w ++ [c]) (step n b c)) by (apply (step_ok n labs (rev ms) HN); [lia|exact Hb]).
    destruct (best_ok n labs (rev ms) HN _ _ Hb') as [[G1 G2]|(u0 & p & m & G1 & G2 & G3 & G4 & G5)].
    - rewrite E3, G1. assert (Qw' : quiet (w ++ [c])) by (apply quiet_snoc; [exact Qw|intros G; apply G2, ends_rev, G]).
      destruct (IH (w ++ [c]) pre q' _ Hs' Hb' Q2 Qw') as (u & v & full & out & F1 & F2 & F3 & F4 & F5). { rewrite app_assoc, app_length. cbn [length]. lia. }
      exists (c :: u), v, full, out. split; [rewrite <- app_assoc; exact F1|]. split; [rewrite F2; reflexivity|]. split; [rewrite <- app_assoc in F3; exact F3|auto].
    - rewrite E3, E2, G1. cbn [fst snd]. assert (Lw : (length w + 1 = length u0 + length p)%nat) by (apply (f_equal (@length Z)) in G2; rewrite !app_length in G2; cbn [length] in G2; lia).
      rewrite app_length in Hl, Hr. rewrite app_length. destruct (Nat.ltb_spec (length pre + length w) (length p - 1)); [lia|].
      assert (Ew : w = u0 ++ firstn (length p - 1) p).
      { destruct (exists_last (l := p)) as (p0 & x & ->); [destruct p; [cbn in G4; lia|discriminate]|]. rewrite app_length. cbn [length]. rewrite Nat.add_sub. rewrite firstn_app, firstn_all, Nat.sub_diag, app_nil_r.
        rewrite app_assoc in G2. apply app_inj_tail in G2. apply G2. }
      assert (EO : firstn (length pre + length w - (length p - 1)) (pre ++ w) = pre ++ u0).
      { replace (length pre + length w - (length p - 1))%nat with (length pre + length u0)%nat by lia. rewrite firstn_app_2. f_equal. rewrite Ew, firstn_app, firstn_all, Nat.sub_diag, app_nil_r. reflexivity. }
      rewrite EO.
      assert (RW : forall u out', rewrites ms u out' -> rewrites ms (w ++ c :: u) (u0 ++ m ++ out')).
      { intros u out' Hr'. replace (w ++ c :: u) with (u0 ++ p ++ u) by (rewrite app_assoc, <- G2, <- app_assoc; reflexivity).
        apply rw_replace; [apply first_last, G3| | |exact Hr'].
        - intros w1 x y E. rewrite <- G2 in E. destruct y as [|z y] using rev_ind; [apply app_inj_tail in E; destruct E as [<- _]; apply (Qw w []); rewrite app_nil_r; reflexivity|].
          clear IHy. rewrite app_comm_cons, app_assoc in E. apply app_inj_tail in E. destruct E as [E _]. exact (Qw _ _ E).
        - intros p' r' u' Hi E. rewrite <- G2 in E. apply (G5 p' r' u'); [apply -> in_rev; exact Hi|exact E]. }
      set (k := (room - length (pre ++ u0))%nat).
      destruct (IH [] ((pre ++ u0) ++ firstn k m) O (empty_set N) Hs' (B_empty n labs (rev ms) HN) H0 quiet_nil) as (u & v & full & out & F1 & F2 & F3 & F4 & F5).
      { rewrite app_nil_r, app_length, firstn_length. unfold k. rewrite app_length. lia. }
      rewrite app_nil_r in F1. exists (c :: u), v, (u0 ++ m ++ full), out. split; [exact F1|]. split; [rewrite F2; reflexivity|]. split; [apply RW; exact F3|]. split; [|exact F5].
      rewrite F4. destruct (Nat.le_gt_cases (length m) k) as [L|L]; [rewrite (firstn_all2 m) by exact L; rewrite <- !app_assoc; reflexivity|].
      assert (Lp : length ((pre ++ u0) ++ firstn k m) = room) by (rewrite app_length, firstn_length; unfold k in *; rewrite app_length in *; lia).
      rewrite firstn_app, Lp, Nat.sub_diag. cbn [firstn]. rewrite app_nil_r, firstn_all2 by lia. rewrite (app_assoc pre u0), (firstn_app room (pre ++ u0)).
      rewrite (firstn_all2 (pre ++ u0)) by (rewrite app_length; lia). f_equal. fold k. rewrite firstn_app. replace (k - length m)%nat with O by lia. cbn [firstn]. rewrite app_nil_r. reflexivity.
  Qed.
End Map.
Lemma mapper_ok ms : patterns_ok ms -> Forall (fun m : list Z * list Z => (length (fst m) <= 382)%nat) ms ->
  exists k m, (forall fuel ds, (k <= fuel)%nat -> mulmap_compile fuel (mkM ms ds) = Some m) /\ m_mappings m = ms /\
    forall text capa, byte_string text -> exists u v full out, mulmap_map_len m text (S capa) = Some out /\ text = u ++ v /\ rewrites ms u full /\ out = firstn capa full /\ (v = [] \/ length out = capa).
Proof.
  intros H1 H2. destruct (add_all (rev ms) (mkN [] [] [] N_CAPA) [] [] (NI_empty _)) as (n & labs & E & HN).
  { unfold patterns_ok in H1. rewrite Forall_forall in *. intros x G. apply H1, in_rev, G. }
  { rewrite Forall_forall in *. intros x G. apply H2, in_rev, G. }
  { cbn. unfold N_CAPA. lia. } { cbn. unfold N_CAPA. lia. }
  cbn [app] in HN. set (N := S (length (n_states n))).
  assert (Hlen : forall b c, length (step n b c) = N).
  { intros b c. unfold step. fold N. apply (step_fold n c (bits b)). rewrite set_states_len. apply repeat_length. }
  assert (D0 : DI n ([], [])). { constructor; cbn; try (intros; contradiction); try constructor; intros; congruence. }
  assert (R : forall fuel, (2 ^ N < fuel)%nat -> exists i st', process fuel n (empty_set N) ([], []) = Some (i, st') /\ DI n st' /\ In (empty_set N, i) (fst st') /\ forall b' i', In (b', i') (fst st') -> complete n st' b' i').
  { intros fuel Hf. destruct (process_ok n (step_out n labs (rev ms) HN) Hlen fuel (empty_set N) ([], []) D0) as (i & st' & P1 & P2 & P3 & P4 & P5).
    - apply repeat_length. - reflexivity. - cbn [fst length]. rewrite Nat.add_0_r. exact Hf.
    - exists i, st'. split; [exact P1|]. split; [exact P2|]. split; [exact P4|]. intros b' i' G. apply P5; [exact G|intros []]. }
  (* the result does not depend on the fuel *)
  assert (MONO : forall f b st r, process f n b st = Some r -> forall f', (f <= f')%nat -> process f' n b st = Some r).
  { induction f as [|f IH]; intros b st r P f' Hf.
    - cbn [process] in P. destruct f'; cbn [process]; destruct (lookup b (fst st)); congruence.
    - destruct f' as [|f']; [lia|]. cbn [process] in *. destruct (lookup b (fst st)); [exact P|].
      match type of P with context [@fold_left ?A ?B ?f0 ?l ?a] => set (F := f0) in *; set (a0 := a) in * end.
      match goal with |- context [@fold_left ?A ?B ?f0 ?l ?a] => set (F' := f0) in * end.
      assert (Q : forall L o x, fold_left F L o = Some x -> fold_left F' L o = Some x).
      { induction L as [|c L IHL]; intros o x HL; [exact HL|]. cbn [fold_left] in *. apply IHL.
        assert (NN : forall L, fold_left F L None = None) by (intros L'; induction L'; [reflexivity|assumption]).
        destruct o as [s|]; [|rewrite NN in HL; discriminate]. unfold F at 2 in HL. cbn [obind] in HL. unfold F'. cbn [obind].
        destruct (process f n (step n b c) s) as [r0|] eqn:P0; [|cbn [obind] in HL; rewrite NN in HL; discriminate].
        rewrite (IH _ _ _ P0) by lia. exact HL. }
      destruct (fold_left F (rev (alphabet n)) a0) as [x|] eqn:FE; [|discriminate P]. rewrite (Q _ _ _ FE). exact P. }
  destruct (R (S (2 ^ N))%nat) as (i & [dm ds] & P1 & P2 & P3 & P4); [lia|].
  exists (S (2 ^ N)), (mkM ms ds). split; [|split; [reflexivity|]].
  { intros fuel ds0 Hf. unfold mulmap_compile, build. cbn [m_mappings]. rewrite E. cbn [obind]. fold N. rewrite (MONO _ _ _ _ P1) by exact Hf. reflexivity. }
  intros text capa Ht. unfold mulmap_map_len. cbn [m_ds fst snd] in *.
  assert (NE : dm <> []) by (intros ->; destruct P3). pose proof (di_hd _ _ P2 NE) as HH. cbn [fst] in HH. fold N in HH.
  assert (ND : ds <> []). { intros ->. pose proof (di_ix _ _ P2) as IX. cbn [fst snd length seq] in IX. apply NE. destruct dm; [reflexivity|discriminate]. }
  destruct ds as [|d0 ds']; [congruence|].
  destruct (map_loop_ok n labs ms (d0 :: ds') dm HN HH) with (room := capa) (s := text) (w := @nil Z) (pre := @nil Z) (q := O) (b := empty_set N) as (u & v & full & out & F1 & F2 & F3 & F4 & F5).
  - intros b j G. destruct (di_ds _ _ P2 b j G) as (d & D1 & _ & D2 & D3). destruct (P4 b j G) as (d' & D1' & D4). cbn [snd fst] in *. rewrite D1 in D1'. injection D1' as <-. exists d. auto.
  - unfold byte_string in Ht. eapply Forall_impl; [|exact Ht]. cbn. lia.
  - apply (B_empty n labs (rev ms) HN). - exact HH. - apply (quiet_nil n labs ms HN). - cbn. lia.
  - exists u, v, full, out. auto.
Qed.

(* the rewriting is a function *)
Lemma rep_in ms p r : replacement ms p r -> In (p, r) ms.
Proof. intros (x & y & -> & _). apply in_or_app. right. left. reflexivity. Qed.
Lemma rewrites_fun ms t a : rewrites ms t a -> forall b, rewrites ms t b -> a = b.
Proof.
  induction 1 as [t Hq|u p r v out HR HE HL Hv IH]; intros b Hb.
  - inversion Hb as [|u p r v out HR _ _ _]; subst; [reflexivity|]. exfalso. apply (Hq (u ++ p) v); [apply app_assoc|]. exists p, r, u. split; [apply rep_in, HR|reflexivity].
  - assert (In (p, r) ms) as Hp by (apply rep_in, HR).
    inversion Hb as [t Hq E1 E2|u' p' r' v' out' HR' HE' HL' Hv' E1 E2]; subst.
    + exfalso. apply (Hq (u ++ p) v); [apply app_assoc|]. exists p, r, u. auto.
    + assert (In (p', r') ms) as Hp' by (apply rep_in, HR').
      rewrite !app_assoc in E1. assert (Q : u' ++ p' = u ++ p /\ v' = v).
      { assert (En : ends ms (u ++ p)) by (exists p, r, u; auto). assert (En' : ends ms (u' ++ p')) by (exists p', r', u'; auto).
        revert E1 HE HE' En En'. generalize (u' ++ p') as x'. generalize (u ++ p) as x. intros x x' E1 HE HE' En En'.
        assert (G : forall (x x' : list Z) (v v' : list Z), x' ++ v' = x ++ v -> (exists z, x = x' ++ z /\ v' = z ++ v) \/ (exists z, x' = x ++ z /\ v = z ++ v')).
        { clear. induction x as [|c x IH]; intros [|c' x'] v v' E; cbn in E.
          - left. exists []. auto. - right. exists (c' :: x'). auto. - left. exists (c :: x). auto.
          - injection E as -> E. destruct (IH _ _ _ E) as [(z & -> & ->)|(z & -> & ->)]; [left|right]; exists z; auto. }
        destruct (G _ _ _ _ E1) as [(z & Ez & Ev)|(z & Ez & Ev)]; (destruct z as [|y z]; [rewrite app_nil_r in Ez; cbn in Ev; auto|exfalso]).
        - exact (HE _ _ _ Ez En'). - exact (HE' _ _ _ Ez En). }
      destruct Q as [Q ->]. assert (Lp : length p = length p') by (apply Nat.le_antisymm; [eapply HL'; [exact Hp|exact Q]|eapply HL; [exact Hp'|symmetry; exact Q]]).
      assert (Q2 : u' = u /\ p' = p). { clear - Q Lp. assert (length u' = length u) by (apply (f_equal (@length Z)) in Q; rewrite !app_length in Q; lia). revert u Q H. induction u' as [|c u' IH]; intros [|c0 u] Q H; cbn in H; try lia; [auto|]. cbn in Q. injection Q as -> Q. destruct (IH u Q) as [-> ->]; [lia|auto]. }
      destruct Q2 as [-> ->]. rewrite (IH _ Hv'). f_equal. f_equal.
      destruct HR as (x & y & E & Ny), HR' as (x' & y' & E' & Ny'). rewrite E in E'. clear - E' Ny Ny'. revert x' E'. induction x as [|c x IH]; intros [|c' x'] E'; cbn in E'.
      * injection E' as E1 _. exact E1.
      * injection E' as _ E1. exfalso. apply (Ny r'). rewrite E1. apply in_or_app. right. left. reflexivity.
      * injection E' as _ E1. exfalso. apply (Ny' r). rewrite <- E1. apply in_or_app. right. left. reflexivity.
      * injection E' as _ E1. eauto.
Qed.
