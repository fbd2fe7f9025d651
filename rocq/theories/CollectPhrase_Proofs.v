From Coq Require Import Sorting.Sorted Sorting.Permutation.
From Verif Require Import Util Strcmp PQueue_Model PQueue_Spec PQueue_Proofs Match_Model Match_Spec Collect_Model Collect_Spec Collect_Proofs Ring.
Open Scope Z_scope.
Notation QI := (PInv tvpe tvpe_lt).
Lemma lt_pre : preorder tvpe tvpe_lt.
Proof. unfold preorder, le, tvpe_lt. split; intros; rewrite ?Z.ltb_ge in *; lia. Qed.
Lemma q_top capa q m : QI capa q m -> m <> [] -> exists x m', Permutation m (x :: m') /\ (forall y, In y m' -> e_pos x <= e_pos y) /\ (do y <- pq_top tvpe q; y) = Some x /\
  (forall e, exists q', pq_replace_top tvpe tvpe_lt q e = Some q' /\ QI capa q' (e :: m')) /\ exists q', pq_pop tvpe tvpe_lt q = Some (Some x, q') /\ QI capa q' m'.
Proof.
  intros HI Hne. pose proof (pi_size _ _ _ _ _ HI) as Hs. assert (Hpos : (0 < pq_size q)%nat) by (destruct m; [congruence|cbn [length] in Hs; lia]).
  destruct (top_elt tvpe tvpe_lt capa q m HI Hpos) as (x & m' & Ex & Pm). pose proof (PInv_least tvpe tvpe_lt lt_pre _ _ _ _ HI Ex Hpos) as (_ & Hl). exists x, m'. splits; [exact Pm| | | |].
  - intros y Hy. specialize (Hl y (Permutation_in _ (Permutation_sym Pm) (or_intror Hy))). unfold PQueue_Spec.le, tvpe_lt in Hl. apply Z.ltb_ge in Hl. exact Hl.
  - unfold pq_top. rewrite (proj2 (Nat.ltb_lt _ _) Hpos), (proj1 (elt_some _ _ _ _) Ex). reflexivity.
  - intros e. exact (replace_top_ok tvpe tvpe_lt lt_pre capa q m x m' e HI Ex Pm).
  - destruct (pop_ok tvpe tvpe_lt lt_pre capa q m HI Hpos) as (y & m2 & q' & E & P2 & _ & HP'). assert (y = x).
    { unfold pq_pop in E. destruct (Nat.ltb_spec 0 (pq_size q)); [|lia]. rewrite (proj1 (elt_some _ _ _ _) Ex) in E. cbn [obind] in E. destruct (nth_error (pq_heap q) (pq_size q)); [|discriminate]. cbn [obind] in E. destruct (pq_down _ _ _); [|discriminate]. cbn [obind] in E. congruence. }
    subst y. exists q'. split; [exact E|]. assert (Pm2 : Permutation m2 m') by (apply (Permutation_cons_inv (a := x)); rewrite <- P2; exact Pm). destruct HP' as [A1 A2 A3 A4 A5]. constructor; auto; [rewrite A1; apply Permutation_map; exact Pm2|rewrite A3; apply Permutation_length; exact Pm2].
Qed.
Lemma q_push capa q m e : QI capa q m -> exists q', pq_push tvpe tvpe_lt q e = Some q' /\ QI capa q' (e :: m).
Proof. intros H. exact (push_ok tvpe tvpe_lt lt_pre capa q m e H). Qed.

(* ---------- the places of an enumerator: the one it is at and those to come *)
Definition bases (p : tvpe) : list Z := e_pos p :: map (fun x => x - e_off p) (e_left p).
Definition count (m : list tvpe) : nat := list_sum (map (fun e => S (length (e_left e))) m).
Lemma count_cons e m : count (e :: m) = (S (length (e_left e)) + count m)%nat.
Proof. reflexivity. Qed.
Lemma count_perm m m' : Permutation m m' -> count m = count m'.
Proof. induction 1; rewrite ?count_cons; lia. Qed.
Lemma merge_loop_ok capa : forall fuel q m, QI capa q m -> (count m < fuel)%nat -> Forall (fun e => up (bases e)) m ->
  exists r, merge_loop fuel q = Some r /\ length r = count m /\ up r /\ forall x, In x r <-> exists e, In e m /\ In x (bases e).
Proof.
  induction fuel as [|f IH]; intros q m HQ Hf HU; [lia|]. cbn [merge_loop]. pose proof (pi_size _ _ _ _ _ HQ) as Hs. destruct (Nat.eqb_spec (pq_size q) 0) as [H0|H0].
  - exists []. assert (m = []) by (destruct m; [reflexivity|cbn [length] in Hs; lia]). subst m. splits; [reflexivity|reflexivity|constructor|]. intros x. split; [intros []|intros (e & [] & _)].
  - destruct (q_top capa q m HQ) as (t & m' & HP & Hmin & Et & Hrep & (qp & Ep & HQp)); [intros ->; cbn [length] in Hs; lia|]. rewrite Et. cbn [obind].
    assert (HU' : Forall (fun e => up (bases e)) (t :: m')) by (apply (Permutation_Forall HP); exact HU). pose proof (Forall_inv HU') as Ht. pose proof (Forall_inv_tail HU') as Hm'. unfold bases in Ht. apply up_inv in Ht. destruct Ht as (Hup & Hge).
    assert (Hall : forall x, (exists e, In e m' /\ In x (bases e)) -> e_pos t <= x).
    { intros x (e & He & Hx). specialize (Hmin e He). rewrite Forall_forall in Hm'. specialize (Hm' e He). unfold bases in Hm', Hx. apply up_inv in Hm'. destruct Hx as [<-|Hx]; [exact Hmin|]. pose proof (proj2 Hm' x Hx). lia. }
    assert (Hin : forall x, (exists e, In e m /\ In x (bases e)) <-> x = e_pos t \/ In x (map (fun x => x - e_off t) (e_left t)) \/ exists e, In e m' /\ In x (bases e)).
    { intros x. split.
      - intros (e & He & Hx). apply (Permutation_in _ HP) in He. destruct He as [<-|He]; [destruct Hx as [<-|Hx]; auto|right; right; exists e; auto].
      - intros [->|[Hx|(e & He & Hx)]]; [exists t|exists t|exists e]; (split; [apply (Permutation_in _ (Permutation_sym HP))|]); try (left; reflexivity); try (right; assumption); assumption. }
    rewrite (count_perm _ _ HP), count_cons in Hf. unfold tvpe_next. destruct (e_left t) as [|y l] eqn:El; cbn [fst snd map length] in *.
    + rewrite Ep. cbn [obind snd]. destruct (IH qp m' HQp ltac:(lia) Hm') as (r & Er & Hl & Hur & Hr). rewrite Er. cbn [obind]. eexists. splits; [reflexivity|rewrite (count_perm _ _ HP), count_cons, El; cbn [length]; lia|constructor; [exact Hur|apply Forall_forall; intros x Hx; apply Hall; apply Hr; exact Hx]|].
      intros x. rewrite Hin. cbn [In]. rewrite Hr. intuition congruence.
    + destruct (Hrep (mkPe (y - e_off t) l (e_off t))) as (q' & Eq & HQ'). rewrite Eq. cbn [obind]. destruct (IH q' _ HQ') as (r & Er & Hl & Hur & Hr); [rewrite count_cons; cbn [e_left]; lia|constructor; [unfold bases; cbn [e_pos e_off e_left]; exact Hup|exact Hm']|].
      rewrite Er. cbn [obind]. assert (Hr2 : forall x, In x r <-> In x (map (fun x => x - e_off t) (y :: l)) \/ exists e, In e m' /\ In x (bases e)).
      { intros x. rewrite Hr. split; [intros (e & [<-|He] & Hx); [left; exact Hx|right; exists e; auto]|intros [Hx|(e & He & Hx)]; [exists (mkPe (y - e_off t) l (e_off t)); split; [left; reflexivity|exact Hx]|exists e; split; [right; exact He|exact Hx]]]. }
      eexists. splits; [reflexivity|rewrite (count_perm _ _ HP), count_cons, El; rewrite count_cons in Hl; cbn [length e_left] in *; lia|constructor; [exact Hur|apply Forall_forall; intros x Hx; apply Hr2 in Hx; destruct Hx as [Hx|Hx]; [apply Hge; exact Hx|apply Hall; exact Hx]]|].
      intros x. rewrite Hin. cbn [In]. rewrite Hr2. cbn [map In]. intuition congruence.
Qed.
Section TV.
  Variable v : tv.
  Hypothesis HV : tv_ok v.
  Lemma merge_fill_ok capa : forall terms q m n, QI capa q m -> count m = n -> Forall (fun e => up (bases e) /\ e_off e = 0) m ->
    exists q' m' n', merge_fill v terms q n = Some (q', n') /\ QI capa q' m' /\ count m' = n' /\ Forall (fun e => up (bases e) /\ e_off e = 0) m' /\
      forall x, (exists e, In e m' /\ In x (bases e)) <-> (exists e, In e m /\ In x (bases e)) \/ exists t, In t terms /\ occurs v t x.
  Proof.
    induction terms as [|t l IH]; cbn [merge_fill]; intros q m n HQ Hn HU.
    - exists q, m, n. splits; auto. intros x. split; [auto|intros [H|(t & [] & _)]; exact H].
    - destruct (get_term_ok v HV t) as (r & E & Hr). rewrite E. cbn [obind]. destruct r as [ps|].
      + destruct Hr as (_ & Hne & Hup & Ho). destruct ps as [|p ps]; [congruence|]. unfold tvpe_new, tvpe_next. cbn [e_left e_off snd]. set (e := mkPe (p - 0) ps 0). destruct (q_push capa q m e HQ) as (q1 & E1 & HQ1). rewrite E1. cbn [obind].
        assert (Hb : bases e = p :: ps) by (unfold bases, e; cbn [e_pos e_off e_left]; rewrite Z.sub_0_r; f_equal; rewrite <- (map_id ps) at 2; apply map_ext; intros; lia).
        destruct (IH q1 (e :: m) (n + length (p :: ps))%nat HQ1) as (q' & m' & n' & E2 & HQ2 & Hc & HF & Hx); [rewrite count_cons; unfold e; cbn [e_left length]; lia|constructor; [rewrite Hb; split; [exact Hup|reflexivity]|exact HU]|].
        exists q', m', n'. splits; auto. intros x. rewrite Hx. split.
        * intros [(a & [<-|Ha] & G)|(u & G1 & G2)]; [right; exists t; split; [left; reflexivity|apply Ho; rewrite Hb in G; exact G]|left; exists a; auto|right; exists u; split; [right; exact G1|exact G2]].
        * intros [(a & Ha & G)|(u & [<-|G1] & G2)]; [left; exists a; split; [right; exact Ha|exact G]|left; exists e; split; [left; reflexivity|rewrite Hb; apply Ho; exact G2]|right; exists u; auto].
      + destruct (IH q m n HQ Hn HU) as (q' & m' & n' & E2 & HQ2 & Hc & HF & Hx). exists q', m', n'. splits; auto. intros x. rewrite Hx. split; [intros [G|(u & G1 & G2)]; [left; exact G|right; exists u; split; [right; exact G1|exact G2]]|intros [G|(u & [<-|G1] & G2)]; [left; exact G|destruct (Hr x G2)|right; exists u; auto]].
  Qed.
  Definition part_pe (off : Z) (terms : list str) (r : option tvpe) : Prop :=
    match r with
    | Some e => e_off e = off /\ e_left e <> [] /\ up (e_left e) /\ forall x, In x (e_left e) <-> exists t, In t terms /\ occurs v t x
    | None => forall x t, In t terms -> ~ occurs v t x
    end.
  Lemma merge_ok terms off : exists r, tvpe_new_merge v terms off = Some r /\ part_pe off terms r.
  Proof.
    unfold tvpe_new_merge. destruct (merge_fill_ok (length terms) terms (pq_new tvpe (length terms)) [] 0) as (q & m & n & E & HQ & Hc & HF & Hx); [apply new_ok|reflexivity|constructor|]. rewrite E. cbn [obind fst snd]. pose proof (pi_size _ _ _ _ _ HQ) as Hs.
    assert (Hx' : forall x, (exists e, In e m /\ In x (bases e)) <-> exists t, In t terms /\ occurs v t x) by (intros x; rewrite Hx; split; [intros [(e & [] & _)|G]; exact G|auto]).
    destruct (Nat.eqb_spec (pq_size q) 0) as [H0|H0].
    - exists None. split; [reflexivity|]. intros x t G1 G2. assert (m = []) by (destruct m; [reflexivity|cbn [length] in Hs; lia]). subst m. destruct (proj2 (Hx' x) (ex_intro _ t (conj G1 G2))) as (e & [] & _).
    - destruct (merge_loop_ok (length terms) (S n) q m HQ ltac:(lia)) as (r & Er & Hl & Hur & Hr); [apply Forall_forall; intros e He; rewrite Forall_forall in HF; exact (proj1 (HF e He))|]. rewrite Er. cbn [obind]. rewrite (proj2 (Nat.leb_le _ _)) by lia. eexists. split; [reflexivity|]. cbn. splits; [reflexivity| |exact Hur|].
      + intros ->. cbn [length] in Hl. destruct m as [|e m]; [cbn [length] in Hs; lia|rewrite count_cons in Hl; lia].
      + intros x. rewrite Hr. apply Hx'.
  Qed.
  Lemma get_tvpe_ok terms off : exists r, get_tvpe v terms off = Some r /\ part_pe off terms r.
  Proof.
    unfold get_tvpe. destruct terms as [|t [|t2 l]]; [apply merge_ok| |apply merge_ok]. destruct (get_term_ok v HV t) as (r & E & Hr). rewrite E. cbn [obind]. eexists. split; [reflexivity|]. destruct r as [ps|]; cbn.
    - destruct Hr as (_ & Hne & Hup & Ho). splits; auto. intros x. split; [intros G; exists t; split; [left; reflexivity|apply Ho; exact G]|intros (u & [<-|[]] & G); apply Ho; exact G].
    - intros x u [<-|[]] G. exact (Hr x G).
  Qed.
End TV.
