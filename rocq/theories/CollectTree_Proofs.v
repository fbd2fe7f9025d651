From Coq Require Import Sorting.Sorted Sorting.Permutation.
From Verif Require Import Util Strcmp Match_Model Match_Spec Match_Proofs Match_Properties Collect_Model Collect_Spec Collect_Proofs CollectTyped_Proofs CollectExact_Proofs CollectSloppy_Proofs Ring.
From Verif Require Range_Model.
Open Scope Z_scope.
Definition inside (ms : list (Z * Z)) (p : Z) : Prop := exists r, In r ms /\ fst r <= p <= snd r.
Lemma inside_app a b p : inside (a ++ b) p <-> inside a p \/ inside b p.
Proof. unfold inside. split; [intros (r & H & G); apply in_app_or in H; destruct H; [left|right]; exists r; auto|intros [(r & H & G)|(r & H & G)]; exists r; (split; [apply in_or_app; auto|exact G])]. Qed.
Lemma inside_covers ms p : covers (map range ms) p <-> inside ms p.
Proof. unfold covers, inside. split; [intros (m & Hm & G); apply in_map_iff in Hm; destruct Hm as (r & <- & Hr); exists r; auto|intros (r & Hr & G); exists (range r); split; [apply in_map; exact Hr|exact G]]. Qed.
Section V.
  Variables (num : Type) (nle nlt : num -> num -> bool) (zero : num) (sscanf : str -> Range_Model.scanres num).
  Variable psort : list (Z * list str) -> list (Z * list str).
  Hypothesis HS : psorts psort.
  Variable v : tv.
  Hypothesis HV : tv_ok v.
  Notation marks := (marks num nle nlt sscanf v).
  Notation hq_ok := (hq_ok num sscanf v).
  Notation collect := (collect num nle nlt zero sscanf psort).
  (* a match begins and ends at positions of the field *)
  Definition good (r : Z * Z) : Prop := held v (fst r) /\ held v (snd r) /\ fst r <= snd r.
  Lemma part_held b part : part_at v b part -> held v (b + fst part).
  Proof. intros (t & _ & H). exists t. exact H. Qed.
  Lemma exact_good poss r : exact_match v poss r -> good r.
  Proof.
    intros (b & HF & (L1 & L2) & G1 & G2). assert (H : forall x, In x (map (fun part => b + fst part) poss) -> held v x) by (intros x Hx; apply in_map_iff in Hx; destruct Hx as (part & <- & Hp); rewrite Forall_forall in HF; apply part_held, HF; exact Hp).
    split; [auto|split; [auto|]]. apply L2. exact G1.
  Qed.
  Lemma sloppy_good slop poss xs r : sloppy_match v slop poss xs r -> good r.
  Proof.
    intros (HP & _ & (L1 & L2) & G1 & G2). assert (H : forall x, In x (ends_of poss xs) -> held v x).
    { clear -HP. unfold ends_of, placed in *. induction HP as [|part x l l' H HF IH]; [intros y []|]. cbn [combine map fst snd]. intros y [<-|Hy]; [|exact (IH y Hy)]. rewrite Z.add_comm. apply part_held. exact H. }
    split; [auto|split; [auto|]]. apply L2. exact G1.
  Qed.
  Definition right (q : hq) : Prop := exists ms n, (forall f, (n <= f)%nat -> collect f v q = Some ms) /\ (forall r, In r ms -> good r) /\ (forall p, inside ms p -> marks q p) /\ (no_sloppy q -> forall p, marks q p -> inside ms p) /\ ((exists p, marks q p) -> ms <> []).
  Lemma bool_inv cs p : marks (HBool cs) p -> exists c, In (false, c) cs /\ marks c p.
  Proof. intros H. inversion H; subst. eexists. eauto. Qed.
  (* queries that mark single positions *)
  Lemma points q ms (P : Z -> Prop) : (forall f, collect f v q = Some ms) -> (forall r, In r ms <-> exists p, P p /\ r = (p, p)) -> (forall p, P p -> held v p) -> (forall p, marks q p <-> P p) -> right q.
  Proof.
    intros E H Hh Hm. assert (HI : forall p, inside ms p <-> P p).
    { intros p. split; [intros (r & Hr & G); apply H in Hr; destruct Hr as (x & Hx & ->); cbn [fst snd] in G; replace p with x by lia; exact Hx|intros Hp; exists (p, p); split; [apply H; exists p; auto|cbn; lia]]. }
    exists ms, 0%nat. splits; [intros f _; apply E|intros r Hr; apply H in Hr; destruct Hr as (p & Hp & ->); unfold good; splits; [apply Hh; exact Hp|apply Hh; exact Hp|cbn; lia]|intros p Hp; apply Hm, HI; exact Hp|intros _ p Hp; apply HI, Hm; exact Hp|].
    intros (p & Hp) ->. apply Hm, HI in Hp. destruct Hp as (r & [] & _).
  Qed.
  Lemma right_all : forall q, hq_ok q -> right q.
  Proof.
    fix IH 1. intros [field t|field heap|field g|field g|field slop poss|cs|] Hok.
    - destruct (tq_ok v HV field t) as (ms & E & H). apply (points _ ms (fun p => tv_field v = field /\ occurs v t p)); [intros f; exact E|intros r; rewrite H; split; [intros (G & p & K1 & K2); exists p; auto|intros (p & (G & K1) & K2); split; [exact G|exists p; auto]]|intros p (_ & Hp); exists t; exact Hp|].
      intros p. split; [intros Hp; inversion Hp; subst; auto|intros (<- & Hp); constructor; exact Hp].
    - destruct (multi_ok v HV field heap) as (ms & E & H). apply (points _ ms (fun p => tv_field v = field /\ exists t, In t heap /\ occurs v t p)); [intros f; exact E|intros r; rewrite H; split; [intros (G & t & p & K1 & K2 & K3); exists p; split; [split; [exact G|exists t; auto]|exact K3]|intros (p & (G & t & K1 & K2) & K3); split; [exact G|exists t, p; auto]]|intros p (_ & t & _ & Hp); exists t; exact Hp|].
      intros p. split; [intros Hp; inversion Hp; subst; split; [reflexivity|eexists; eauto]|intros (<- & t & K1 & K2); econstructor; eauto].
    - destruct (rq_ok v HV field g) as (ms & E & H). apply (points _ ms (fun p => tv_field v = field /\ exists t, in_range g t /\ occurs v t p)); [intros f; exact E|intros r; rewrite H; split; [intros (G & t & p & K1 & K2 & K3); exists p; split; [split; [exact G|exists t; auto]|exact K3]|intros (p & (G & t & K1 & K2) & K3); split; [exact G|exists t, p; auto]]|intros p (_ & t & _ & Hp); exists t; exact Hp|].
      intros p. split; [intros Hp; inversion Hp; subst; split; [reflexivity|eexists; eauto]|intros (<- & t & K1 & K2); econstructor; eauto].
    - destruct Hok as (H1 & H2 & H3 & H4). destruct (trq_ok num nle nlt zero sscanf v field g HV H1 H2 H3 H4) as (ms & E & H). apply (points _ ms (fun p => tv_field v = field /\ exists t x, number num sscanf t x /\ num_between num nle nlt sscanf g x /\ occurs v t p)); [intros f; exact E| |intros p (_ & t & _ & _ & _ & Hp); exists t; exact Hp|].
      + intros r. rewrite H. split; [intros (G & t & p & x & K1 & K2 & K3 & K4); exists p; split; [split; [exact G|exists t, x; auto]|exact K4]|intros (p & (G & t & x & K1 & K2 & K3) & K4); split; [exact G|exists t, p, x; auto]].
      + intros p. split; [intros Hp; inversion Hp; subst; split; [reflexivity|do 2 eexists; eauto]|intros (<- & t & x & K1 & K2 & K3); econstructor; eauto].
    - cbn [Collect_Spec.hq_ok] in Hok. destruct (Z.ltb_spec 0 slop) as [Hs|Hs].
      + destruct Hok as (Hl & Hb). destruct (sloppy_ok v HV psort field slop poss Hl Hb Hs) as (ms & n & E & H1 & H2). exists ms, n. splits; [exact E|intros r Hr; destruct (H1 r Hr) as (_ & xs & G); exact (sloppy_good _ _ _ _ G)| |cbn [no_sloppy]; lia|].
        * intros p (r & Hr & G). destruct (H1 r Hr) as (<- & xs & K). exact (mk_sloppy _ _ _ _ _ _ _ xs r p Hs K G).
        * intros (p & Hp) ->. inversion Hp; subst; [lia|]. match goal with K : sloppy_match _ _ _ _ _ |- _ => destruct (H2 eq_refl _ (proj1 K) (proj1 (proj2 K))) as (r' & ys & [] & _) end.
      + destruct (exact_ok v HV psort field slop poss HS Hok Hs) as (ms & n & E & H). exists ms, n. splits; [exact E|intros r Hr; apply H in Hr; exact (exact_good _ _ (proj2 Hr))| | |].
        * intros p (r & Hr & G). apply H in Hr. destruct Hr as (<- & K). exact (mk_exact _ _ _ _ _ _ _ r p Hs K G).
        * intros _ p Hp. inversion Hp; subst; [|lia]. eexists. split; [apply H; eauto|assumption].
        * intros (p & Hp) ->. inversion Hp; subst; [|lia]. match goal with K : exact_match _ _ ?r |- _ => destruct (proj2 (H r) (conj eq_refl K)) end.
    - cbn [Collect_Spec.hq_ok] in Hok. unfold right. cbn [Collect_Model.collect no_sloppy]. revert Hok. induction cs as [|(mn & c) r IHr].
      + intros _. exists [], 0%nat. splits; [intros; reflexivity|intros r []|intros p (r & [] & _)|intros _ p Hp; destruct (bool_inv _ _ Hp) as (c & [] & _)|intros (p & Hp); destruct (bool_inv _ _ Hp) as (c & [] & _)].
      + intros (Hc & Hr). destruct (IHr Hr) as (m2 & n2 & E2 & A2 & B2 & C2 & D2). destruct (IH c Hc) as (m1 & n1 & E1 & A1 & B1 & C1 & D1). clear IHr.
        assert (HM : forall p, marks (HBool ((mn, c) :: r)) p <-> marks (HBool r) p \/ (mn = false /\ marks c p)).
        { intros p. split; [intros Hp; destruct (bool_inv _ _ Hp) as (c' & [Hin|Hin] & K); [injection Hin as -> ->; right; auto|left; econstructor; eauto]|intros [Hp|(-> & Hp)]; [destruct (bool_inv _ _ Hp) as (c' & Hin & K); econstructor; [right; exact Hin|exact K]|econstructor; [left; reflexivity|exact Hp]]]. }
        destruct mn.
        * exists (m2 ++ []), n2. splits.
          -- intros f Hf. rewrite (E2 f Hf). reflexivity.
          -- rewrite app_nil_r. exact A2.
          -- rewrite app_nil_r. intros p Hp. apply HM. left. apply B2. exact Hp.
          -- rewrite app_nil_r. intros (_ & Hns) p Hp. apply HM in Hp. destruct Hp as [Hp|(G & _)]; [apply C2; assumption|discriminate].
          -- rewrite app_nil_r. intros (p & Hp). apply HM in Hp. destruct Hp as [Hp|(G & _)]; [apply D2; exists p; exact Hp|discriminate].
        * exists (m2 ++ m1), (n1 + n2)%nat. splits.
          -- intros f Hf. rewrite (E2 f ltac:(lia)). cbn [obind]. rewrite (E1 f ltac:(lia)). reflexivity.
          -- intros x Hx. apply in_app_or in Hx. destruct Hx; auto.
          -- intros p Hp. apply HM. apply inside_app in Hp. destruct Hp as [Hp|Hp]; [left; apply B2; exact Hp|right; split; [reflexivity|apply B1; exact Hp]].
          -- intros (N1 & N2) p Hp. apply HM in Hp. apply inside_app. destruct Hp as [Hp|(_ & Hp)]; [left; apply C2; assumption|right; apply C1; assumption].
          -- intros (p & Hp) G. apply app_eq_nil in G. destruct G as (-> & ->). apply HM in Hp. destruct Hp as [Hp|(_ & Hp)]; [exact (D2 (ex_intro _ p Hp) eq_refl)|exact (D1 (ex_intro _ p Hp) eq_refl)].
    - exists [], 0%nat. splits; [reflexivity|intros r []|intros p (r & [] & _)|intros _ p Hp; inversion Hp|intros (p & Hp); inversion Hp].
  Qed.
  (* the text *)
  Lemma offs_ok text offs ms : text_ok text offs v -> (forall r, In r ms -> good r) -> offsets_ok text offs ms.
  Proof.
    intros (T1 & T2 & T3) HG. assert (He : forall p, edge ms p -> held v (Z.of_nat p)) by (intros p (m & Hm & [E|E]); rewrite E; apply (HG m Hm)). unfold offsets_ok. splits.
    - intros m Hm. destruct (HG m Hm) as (A & B & C). pose proof (T1 _ A). pose proof (T1 _ B). lia.
    - intros p o Hp. apply T2. apply He. exact Hp.
    - intros p q o r Hp Hq. apply T3; apply He; assumption.
  Qed.
  Lemma shows qsort q text offs pre post : qsorts qsort -> hq_ok q -> text_ok text offs v -> text <> [] ->
    exists ms n out, (forall f, (n <= f)%nat -> collect f v q = Some ms) /\ apart 0 out /\ (forall p, covers out p -> marks q p) /\ (no_sloppy q -> forall p, marks q p -> covers out p) /\ ((exists p, marks q p) -> exists p, covers out p) /\
      highlight_field qsort (vec_of ms) (mkLdf text (Z.of_nat (length text)) false) offs pre post = Some (tagged text pre post 0 (map (offset_pair offs) out)) /\ tagged text [] [] 0 (map (offset_pair offs) out) = text.
  Proof.
    intros Hq Hok HT Hne. destruct (right_all q Hok) as (ms & n & E & A & B & C & D). destruct ms as [|m ms].
    - exists [], n, []. splits; [exact E|constructor|intros p (x & [] & _)|intros Hn p Hp; destruct (C Hn p Hp) as (r & [] & _)|intros G; destruct (D G eq_refl)| |].
      + cbn [vec_of fold_left]. rewrite nothing by exact Hne. cbn [map tagged]. unfold slice. rewrite Z.sub_0_r, Nat2Z.id. change (Z.to_nat 0) with 0%nat. cbn [skipn]. rewrite firstn_all. reflexivity.
      + cbn [map tagged]. unfold slice. rewrite Z.sub_0_r, Nat2Z.id. change (Z.to_nat 0) with 0%nat. cbn [skipn]. apply firstn_all.
    - destruct (highlights qsort text offs (m :: ms) pre post Hq (offs_ok _ _ _ HT A)) as (out & H1 & H2 & _ & H4 & H5); [discriminate|]. exists (m :: ms), n, out. splits; [exact E|exact H1| | | |exact H4|exact H5].
      + intros p Hp. apply B, inside_covers, H2. exact Hp.
      + intros Hn p Hp. apply H2, inside_covers, C; assumption.
      + intros _. exists (fst m). apply H2, inside_covers. exists m. split; [left; reflexivity|]. destruct (A m (or_introl eq_refl)) as (_ & _ & G). lia.
  Qed.
End V.
