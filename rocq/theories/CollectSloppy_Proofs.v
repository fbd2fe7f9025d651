From Coq Require Import Sorting.Sorted Sorting.Permutation.
From Verif Require Import Util Strcmp PQueue_Model PQueue_Spec PQueue_Proofs Match_Model Match_Spec Collect_Model Collect_Spec Collect_Proofs CollectPhrase_Proofs CollectExact_Proofs Ring.
Open Scope Z_scope.
Definition stop (e : tvpe) : Z := e_pos e + e_off e.
Lemma bounds_ok : forall l cells mn mx seen, Permutation cells (map Some l) -> least seen mn -> greatest seen mx ->
  exists r, bounds cells mn mx = Some r /\ least (seen ++ map stop l) (fst r) /\ greatest (seen ++ map stop l) (snd r).
Proof.
  intros l cells. revert l. induction cells as [|c cells IH]; intros l mn mx seen HP HL HG; cbn [bounds].
  - apply Permutation_nil in HP. apply map_eq_nil in HP. subst l. cbn [map]. rewrite app_nil_r. exists (mn, mx). auto.
  - assert (Hc : In c (map Some l)) by (apply (Permutation_in _ HP); left; reflexivity). apply in_map_iff in Hc. destruct Hc as (e & <- & He). destruct (in_split _ _ He) as (a & b & ->). cbn [obind]. fold (stop e).
    assert (HP' : Permutation cells (map Some (a ++ b))) by (rewrite map_app in *; cbn [map] in HP; apply Permutation_cons_app_inv in HP; exact HP).
    destruct (IH (a ++ b) (if stop e <? mn then stop e else mn) (if mx <? stop e then stop e else mx) (seen ++ [stop e]) HP') as (r & Er & HL2 & HG2).
    + destruct HL as (K1 & K2). destruct (Z.ltb_spec (stop e) mn); (split; [apply in_or_app; cbn [In]; auto|]); intros y Hy; apply in_app_or in Hy; (destruct Hy as [Hy|[<-|[]]]; [specialize (K2 y Hy)|]); lia.
    + destruct HG as (K1 & K2). destruct (Z.ltb_spec mx (stop e)); (split; [apply in_or_app; cbn [In]; auto|]); intros y Hy; apply in_app_or in Hy; (destruct Hy as [Hy|[<-|[]]]; [specialize (K2 y Hy)|]); lia.
    + exists r. split; [exact Er|]. assert (HI : forall y, In y ((seen ++ [stop e]) ++ map stop (a ++ b)) <-> In y (seen ++ map stop (a ++ e :: b))) by (intros y; rewrite !map_app; cbn [map]; rewrite !in_app_iff; cbn [In]; tauto).
      destruct HL2 as (A1 & A2), HG2 as (B1 & B2). split; (split; [apply HI; assumption|intros y Hy; apply HI in Hy; auto]).
Qed.
Lemma cells_ok capa q m : QI capa q m -> Permutation (heap_cells q) (map Some m).
Proof. intros H. unfold heap_cells. etransitivity; [symmetry; apply Permutation_rev|]. exact (pi_perm _ _ _ _ _ H). Qed.
(* what advance leaves behind *)
Lemma advance_ok : forall f p nx st, (length (e_left p) + 1 < f)%nat -> reading p -> e_pos p <= nx ->
  exists done start p' pre, advance f p nx st = Some (done, start, p') /\ e_off p' = e_off p /\ In start (bases p) /\ e_pos p <= start /\ start <= nx /\ (forall x, In x pre -> x <= start) /\
    if (done : bool) then bases p = pre else bases p = pre ++ bases p' /\ nx < e_pos p' /\ reading p' /\ (length (e_left p') < length (e_left p))%nat.
Proof.
  induction f as [|f IH]; intros p nx st Hf HR Hle; [lia|]. cbn [advance]. destruct (Z.leb_spec (e_pos p) nx); [|lia]. pose proof (next_ok p) as Hn. destruct (reading_later p HR) as (Hup & Hge). destruct (later p) as [|y r] eqn:El.
  - rewrite Hn. exists true, (e_pos p), (snd (tvpe_next p)), (bases p). splits; [reflexivity| |left; reflexivity|lia|lia| |reflexivity].
    + unfold tvpe_next. destruct (e_left p); reflexivity.
    + unfold bases. fold (later p). rewrite El. intros x [<-|[]]. lia.
  - destruct Hn as (E1 & Hb & Eo & Hl). rewrite E1. set (n := snd (tvpe_next p)) in *. assert (Hn : reading n) by (unfold reading; rewrite Hb; exact Hup). assert (Hbp : bases p = e_pos p :: bases n) by (unfold bases at 1; fold (later p); rewrite El, Hb; reflexivity).
    assert (Hpn : e_pos p <= e_pos n) by (rewrite (bases_pos _ _ _ Hb); apply Hge; left; reflexivity).
    destruct (Z.leb_spec (e_pos n) nx) as [G|G].
    + destruct (IH n nx (e_pos p) ltac:(lia) Hn G) as (dn & st' & p' & pre & E & G1 & G2 & G3 & G4 & G5 & G6). exists dn, st', p', (e_pos p :: pre). splits; [exact E|congruence|rewrite Hbp; right; exact G2|lia|lia|intros x [<-|Hx]; [lia|auto]|].
      destruct dn; [rewrite Hbp, G6; reflexivity|]. destruct G6 as (K1 & K2 & K3 & K4). splits; [rewrite Hbp, K1; reflexivity|exact K2|exact K3|lia].
    + exists false, (e_pos p), n, [e_pos p]. splits; [destruct f; [lia|]; cbn [advance]; destruct (Z.leb_spec (e_pos n) nx); [lia|reflexivity]|exact Eo|left; reflexivity|lia|lia|intros x [<-|[]]; lia|exact Hbp|exact G|exact Hn|exact Hl].
Qed.
Lemma ends_pe poss l : map e_off l = map fst poss -> ends_of poss (map e_pos l) = map stop l.
Proof.
  unfold ends_of. revert l. induction poss as [|(o & t) poss IH]; intros [|e l] E; try discriminate; [reflexivity|]. cbn [map combine fst snd] in *. injection E as E1 E2. rewrite (IH l E2). unfold stop. f_equal. lia.
Qed.
Section TV.
  Variable v : tv.
  Variables (slop : Z) (poss : list (Z * list str)).
  Hypothesis Hslop : 0 <= slop.
  (* a cursor on one part *)
  Definition cur (part : Z * list str) (e : tvpe) : Prop := e_off e = fst part /\ reading e /\ forall x, In x (bases e) -> part_at v x part.
  Definition holds (r : Z * Z) : Prop := exists xs, sloppy_match v slop poss xs r.
  Definition near (xs : list Z) (r : Z * Z) : Prop := exists ys, sloppy_match v slop poss ys r /\ between ys xs.
  Lemma curs_off l : Forall2 cur poss l -> map e_off l = map fst poss.
  Proof. induction 1 as [|x y a b H HF IH]; [reflexivity|]. cbn [map]. rewrite IH, (proj1 H). reflexivity. Qed.
  Lemma sloppy_go_ok capa : forall n ps m q last, (lefts ps <= n)%nat -> QI capa q m -> Permutation m ps -> Forall2 cur poss ps -> (2 <= length ps)%nat ->
    (forall e, In e ps -> e_pos e <= last) -> (exists e, In e ps /\ e_pos e = last) ->
    exists ms, (exists k, forall f, (k <= f)%nat -> sloppy_go f slop last q = Some ms) /\ (forall r, In r ms -> holds r) /\
      forall xs, Forall2 (fun e x => In x (bases e)) ps xs -> close_by slop xs -> exists r, In r ms /\ near xs r.
  Proof.
    induction n as [n IH] using lt_wf_ind. intros ps m q last Hn HQ HP HC Hlen Hmax Hatt. pose proof (Permutation_length HP) as HlP.
    destruct (q_top capa q m HQ) as (p & m' & HPm & Hmin & _ & _ & (qp & Epop & HQp)); [intros ->; cbn [length] in HlP; lia|]. assert (HlP' : length m = S (length m')) by (rewrite (Permutation_length HPm); reflexivity).
    destruct (q_top capa qp m' HQp) as (t & m2 & HPt & Hmint & Etop & _ & _); [intros ->; cbn [length] in HlP'; lia|]. assert (Ht : In t m') by (apply (Permutation_in _ (Permutation_sym HPt)); left; reflexivity).
    assert (Hmt : forall e, In e m' -> e_pos t <= e_pos e) by (intros e He; apply (Permutation_in _ HPt) in He; destruct He as [<-|He]; [lia|apply Hmint; exact He]).
    assert (Hpin : In p ps) by (apply (Permutation_in _ HP), (Permutation_in _ (Permutation_sym HPm)); left; reflexivity). destruct (in_split _ _ Hpin) as (a & b & Eps). subst ps.
    assert (HPab : Permutation m' (a ++ b)) by (apply (Permutation_cons_app_inv (a := p) a b); rewrite <- HPm; exact HP).
    destruct (Forall2_app_inv_r _ _ HC) as (pa & pb0 & HCa & HCb0 & Eposs). inversion HCb0 as [|part x pb y Hcp HCb E1 E2]. subst x y pb0. destruct Hcp as (Eoff & HRp & Hbp).
    assert (HRall : forall e, In e (a ++ p :: b) -> reading e).
    { clear -HC. induction HC as [|x y l l' H HF IHF]; [intros e []|]. intros e [<-|He]; [apply H|auto]. }
    destruct (advance_ok (S (S (length (e_left p)))) p (e_pos t) (e_pos p) ltac:(lia) HRp (Hmin t Ht)) as (done & start & p' & pre & Eadv & Eoff' & Hst & Hst1 & Hst2 & Hpre & Hdone).
    set (p0 := mkPe start [] (e_off p)).
    assert (Hp0C : Forall2 cur poss (a ++ p0 :: b)).
    { rewrite Eposs. apply Forall2_app; [exact HCa|]. constructor; [|exact HCb]. split; [exact Eoff|split]. { unfold reading, bases, p0. cbn [e_left map]. repeat constructor. } unfold bases, p0. cbn [e_pos e_left map]. intros x [<-|[]]. apply Hbp. exact Hst. }
    assert (Hin0 : forall y, In y (map e_pos (a ++ p0 :: b)) <-> y = start \/ exists e, In e m' /\ e_pos e = y).
    { intros y. rewrite map_app. cbn [map e_pos p0]. rewrite in_app_iff. cbn [In]. split.
      - intros [G|[G|G]]; [|left; congruence|]; right; apply in_map_iff in G; destruct G as (e & G1 & G2); exists e; (split; [apply (Permutation_in _ (Permutation_sym HPab)), in_or_app; auto|exact G1]).
      - intros [->|(e & G1 & G2)]; [right; left; reflexivity|]. apply (Permutation_in _ HPab) in G1. apply in_app_or in G1. destruct G1 as [G1|G1]; [left|right; right]; apply in_map_iff; exists e; auto. }
    assert (Hst_last : start <= last).
    { assert (Htl : e_pos t <= last) by (apply Hmax; apply (Permutation_in _ HPab) in Ht; apply in_or_app; apply in_app_or in Ht; cbn [In]; tauto). lia. }
    assert (Hrange : forall y, In y (map e_pos (a ++ p0 :: b)) -> start <= y <= last).
    { intros y Hy. apply Hin0 in Hy. destruct Hy as [->|(e & He & <-)]; [lia|]. pose proof (Hmt e He). assert (In e (a ++ p :: b)) by (apply (Permutation_in _ HPab) in He; apply in_or_app; apply in_app_or in He; cbn [In]; tauto). pose proof (Hmax e H0). lia. }
    assert (Hplaced : placed v poss (map e_pos (a ++ p0 :: b))).
    { unfold placed. clear -Hp0C. induction Hp0C as [|x y l l' H HF IHF]; [constructor|]. cbn [map]. constructor; [apply (proj2 (proj2 H)); left; reflexivity|exact IHF]. }
    (* what this turn emits *)
    destruct (bounds_ok m' (heap_cells qp) (start + e_off p') (start + e_off p') [start + e_off p']) as (bd & Ebd & HL & HG); [exact (cells_ok capa qp m' HQp)|split; [left; reflexivity|intros y [<-|[]]; lia]|split; [left; reflexivity|intros y [<-|[]]; lia]|].
    assert (Hends : Permutation ([start + e_off p'] ++ map stop m') (ends_of poss (map e_pos (a ++ p0 :: b)))).
    { rewrite (ends_pe poss _ (curs_off _ Hp0C)). rewrite map_app. cbn [map app]. rewrite Eoff'. change (stop p0) with (start + e_off p). apply Permutation_cons_app. rewrite <- map_app. apply Permutation_map. exact HPab. }
    assert (Hemit : last - start <= slop -> sloppy_match v slop poss (map e_pos (a ++ p0 :: b)) bd).
    { intros G. split; [exact Hplaced|]. split; [intros x y Hx Hy; pose proof (Hrange x Hx); pose proof (Hrange y Hy); lia|]. destruct HL as (L1 & L2), HG as (G1 & G2). split; (split; [apply (Permutation_in _ Hends); assumption|intros y Hy; apply (Permutation_in _ (Permutation_sym Hends)) in Hy; auto]). }
    set (here := if last - start <=? slop then [bd] else []).
    assert (Ehere : (if last - start <=? slop then do b0 <- bounds (heap_cells qp) (start + e_off p') (start + e_off p'); Some [b0] else Some []) = Some here) by (unfold here; destruct (last - start <=? slop); [rewrite Ebd; reflexivity|reflexivity]).
    assert (Hhere : forall r, In r here -> holds r) by (unfold here; destruct (Z.leb_spec (last - start) slop) as [G|G]; [|intros r []]; intros r [<-|[]]; exists (map e_pos (a ++ p0 :: b)); exact (Hemit G)).
    assert (Hcase : forall xs xa xp xb, xs = xa ++ xp :: xb -> Forall2 (fun e x => In x (bases e)) a xa -> In xp (bases p) -> Forall2 (fun e x => In x (bases e)) b xb -> close_by slop xs -> xp <= start -> exists r, In r here /\ near xs r).
    { intros xs xa xp xb Exs HFa HFp HFb Hcl Hxp.
      assert (Hw : exists x, In x xs /\ last <= x).
      { destruct Hatt as (e & He & Hel). apply in_app_or in He. assert (Hgo : forall l xl, Forall2 (fun e x => In x (bases e)) l xl -> (forall e, In e l -> reading e) -> In e l -> exists x, In x xl /\ last <= x).
        { clear -Hel. induction 1 as [|e0 x0 l l' H HF IHF]; [intros HR []|intros HR [<-|G]]. - exists x0. split; [left; reflexivity|]. rewrite <- Hel. apply bases_ge; [apply HR; left; reflexivity|exact H]. - destruct IHF as (x & G1 & G2); [intros e1 H1; apply HR; right; exact H1|exact G|]. exists x. split; [right; exact G1|exact G2]. }
        destruct He as [He|[<-|He]].
        - destruct (Hgo a xa HFa) as (x & G1 & G2); [intros e0 H0; apply HRall, in_or_app; auto|exact He|]. exists x. split; [rewrite Exs; apply in_or_app; left; exact G1|exact G2].
        - exists xp. split; [rewrite Exs; apply in_or_app; right; left; reflexivity|]. rewrite <- Hel. apply bases_ge; [exact HRp|exact HFp].
        - destruct (Hgo b xb HFb) as (x & G1 & G2); [intros e0 H0; apply HRall, in_or_app; cbn [In]; auto|exact He|]. exists x. split; [rewrite Exs; apply in_or_app; right; right; exact G1|exact G2]. }
      destruct Hw as (x & Hx & Hlx). assert (Hxpin : In xp xs) by (rewrite Exs; apply in_or_app; right; left; reflexivity).
      assert (Hem : last - start <= slop) by (pose proof (Hcl xp x Hxpin Hx); lia). exists bd. split; [unfold here; rewrite (proj2 (Z.leb_le _ _) Hem); left; reflexivity|]. exists (map e_pos (a ++ p0 :: b)). split; [exact (Hemit Hem)|]. intros y Hy. pose proof (Hrange y Hy). split; [exists xp; split; [exact Hxpin|lia]|exists x; split; [exact Hx|lia]]. }
    destruct (q_push capa qp m' p' HQp) as (q' & Epush & HQ'). destruct done.
    - exists here. split; [|split; [exact Hhere|]].
      + exists 1%nat. intros [|f] Hf; [lia|]. cbn [sloppy_go]. rewrite Epop. cbn [obind fst snd]. rewrite Etop. cbn [obind]. rewrite Eadv. cbn [obind]. rewrite Ehere. cbn [obind]. rewrite Epush. cbn [obind]. rewrite app_nil_r. reflexivity.
      + intros xs HFx Hcl. destruct (Forall2_app_inv_l _ _ HFx) as (xa & xb0 & HFa & HFb0 & Exs). inversion HFb0 as [|e0 xp l xb HFp HFb E1 E2]. subst e0 l xb0. apply (Hcase xs xa xp xb Exs HFa HFp HFb Hcl). apply Hpre. rewrite <- Hdone. exact HFp.
    - destruct Hdone as (Hb & Hnx & HRp' & Hless). set (last' := if last <? e_pos p' then e_pos p' else last).
      destruct (IH (lefts (a ++ p' :: b))) with (ps := a ++ p' :: b) (m := p' :: m') (q := q') (last := last') as (ms & (k & Ek) & Hsound & Hcomp).
      + rewrite lefts_app, lefts_cons in *. lia.
      + lia.
      + exact HQ'.
      + apply Permutation_cons_app. exact HPab.
      + rewrite Eposs. apply Forall2_app; [exact HCa|]. constructor; [|exact HCb]. split; [congruence|split; [exact HRp'|]]. intros x Hx. apply Hbp. rewrite Hb. apply in_or_app. right. exact Hx.
      + rewrite app_length in *. cbn [length] in *. exact Hlen.
      + intros e He. assert (Hcs : e = p' \/ In e (a ++ p :: b)) by (apply in_app_or in He; rewrite in_app_iff; cbn [In] in *; intuition congruence). unfold last'. destruct Hcs as [->|Hcs]; [|pose proof (Hmax e Hcs)]; destruct (Z.ltb_spec last (e_pos p')); lia.
      + unfold last'. destruct (Z.ltb_spec last (e_pos p')) as [G|G]; [exists p'; split; [apply in_or_app; right; left; reflexivity|reflexivity]|]. destruct Hatt as (e & He & Hel). apply in_app_or in He. destruct He as [He|[<-|He]]; [exists e; split; [apply in_or_app; auto|exact Hel]| |exists e; split; [apply in_or_app; cbn [In]; auto|exact Hel]]. pose proof (Hmin t Ht). lia.
      + exists (here ++ ms). split; [|split].
        * exists (S k). intros [|f] Hf; [lia|]. cbn [sloppy_go]. rewrite Epop. cbn [obind fst snd]. rewrite Etop. cbn [obind]. rewrite Eadv. cbn [obind]. rewrite Ehere. cbn [obind]. rewrite Epush. cbn [obind]. fold last'. rewrite (Ek f) by lia. reflexivity.
        * intros r Hr. apply in_app_or in Hr. destruct Hr as [Hr|Hr]; auto.
        * intros xs HFx Hcl. destruct (Forall2_app_inv_l _ _ HFx) as (xa & xb0 & HFa & HFb0 & Exs). inversion HFb0 as [|e0 xp l xb HFp HFb E1 E2]. subst e0 l xb0. pose proof HFp as HFp2. rewrite Hb in HFp2. apply in_app_or in HFp2. destruct HFp2 as [G|G].
          -- destruct (Hcase xs xa xp xb Exs HFa HFp HFb Hcl (Hpre xp G)) as (r & G1 & G2). exists r. split; [apply in_or_app; left; exact G1|exact G2].
          -- destruct (Hcomp xs) as (r & G1 & G2); [rewrite Exs; apply Forall2_app; [exact HFa|constructor; assumption]|exact Hcl|]. exists r. split; [apply in_or_app; right; exact G1|exact G2].
  Qed.
End TV.
Section FILL.
  Variable v : tv.
  Hypothesis HV : tv_ok v.
  Definition fresh (part : Z * list str) (e : tvpe) : Prop := cur v part e /\ forall x, part_at v x part -> In x (bases e).
  Lemma sloppy_fill_ok capa : forall poss q m last, QI capa q m ->
    exists r, sloppy_fill v poss q last = Some r /\
    match r with
    | Some (q', last') => exists ps m', Forall2 fresh poss ps /\ QI capa q' m' /\ Permutation m' (m ++ ps) /\ last <= last' /\ (forall e, In e ps -> e_pos e <= last') /\ (last' = last \/ exists e, In e ps /\ e_pos e = last')
    | None => exists part, In part poss /\ forall x, ~ part_at v x part
    end.
  Proof.
    induction poss as [|(off & terms) poss IH]; cbn [sloppy_fill]; intros q m last HQ.
    - eexists. split; [reflexivity|]. cbn. exists [], m. splits; [constructor|exact HQ|rewrite app_nil_r; apply Permutation_refl|lia|intros e []|left; reflexivity].
    - destruct (get_tvpe_ok v HV terms off) as (x & Ex & Hx). rewrite Ex. cbn [obind]. destruct x as [e|].
      2: { eexists. split; [reflexivity|]. cbn. exists (off, terms). split; [left; reflexivity|]. intros x (t & G1 & G2). exact (Hx _ t G1 G2). }
      destruct (part_later v _ _ _ Hx) as (Hup & Hne & Hin). pose proof (next_ok e) as Hn. destruct (later e) as [|y r] eqn:El; [congruence|]. destruct Hn as (E1 & Hb & Eo & _). rewrite E1. set (n := snd (tvpe_next e)) in *.
      destruct (q_push capa q m n HQ) as (q1 & E2 & HQ1). rewrite E2. cbn [obind]. assert (Hfr : fresh (off, terms) n).
      { split; [split; [|split]|]. - rewrite Eo. apply Hx. - unfold reading. rewrite Hb. exact Hup. - intros x Hx'. rewrite Hb in Hx'. apply Hin. exact Hx'. - intros x Hx'. rewrite Hb. apply Hin. exact Hx'. }
      destruct (IH q1 (n :: m) (if last <? e_pos n then e_pos n else last) HQ1) as (z & Ez & Hz). exists z. split; [exact Ez|]. destruct z as [(q' & last')|].
      + destruct Hz as (ps & m' & K1 & K2 & K3 & K4 & K5 & K6). exists (n :: ps), m'. splits; [constructor; assumption|exact K2|rewrite K3; cbn [app]; apply Permutation_middle|destruct (Z.ltb_spec last (e_pos n)); lia| |].
        * intros e0 [<-|H0]; [destruct (Z.ltb_spec last (e_pos n)); lia|apply K5; exact H0].
        * destruct K6 as [K6|(e0 & G1 & G2)]; [|right; exists e0; split; [right; exact G1|exact G2]]. destruct (Z.ltb_spec last (e_pos n)) as [G|G]; [right; exists n; split; [left; reflexivity|congruence]|left; exact K6].
      + destruct Hz as (part & G1 & G2). exists part. split; [right; exact G1|exact G2].
  Qed.
  Lemma sloppy_ok psort field slop poss : (2 <= length poss)%nat -> begins v poss -> 0 < slop ->
    exists ms n, (forall f, (n <= f)%nat -> phq_matchv psort f v field slop poss = Some ms) /\ (forall r, In r ms -> tv_field v = field /\ exists xs, sloppy_match v slop poss xs r) /\
      (tv_field v = field -> forall xs, placed v poss xs -> close_by slop xs -> exists r ys, In r ms /\ sloppy_match v slop poss ys r /\ between ys xs).
  Proof.
    intros Hlen Hbeg Hs. unfold phq_matchv. destruct (Z.eqb_spec (tv_field v) field) as [Hf|Hf]; [|exists [], 0%nat; splits; [reflexivity|intros r []|intros G; congruence]]. rewrite (proj2 (Z.ltb_lt _ _) Hs).
    destruct (sloppy_fill_ok (length poss) poss (pq_new tvpe (length poss)) [] 0 (new_ok _ _ _)) as (r & E & Hr). rewrite E. cbn [obind]. destruct r as [(q & last)|].
    - destruct Hr as (ps & m & K1 & K2 & K3 & K4 & K5 & K6). cbn [app] in K3.
      assert (HC : Forall2 (cur v) poss ps) by (clear -K1; induction K1 as [|x y l l' H HF IH]; constructor; [apply H|exact IH]).
      assert (Hl : length ps = length poss) by (clear -K1; induction K1; cbn [length]; congruence).
      assert (Hatt : exists e, In e ps /\ e_pos e = last).
      { destruct K6 as [->|K6]; [|exact K6]. destruct Hbeg as (part & Hp & Hge). assert (G : exists e, In e ps /\ cur v part e) by (clear -Hp HC; induction HC as [|x y l l' H HF IH]; [destruct Hp|]; destruct Hp as [<-|Hp]; [exists y; split; [left; reflexivity|exact H]|destruct (IH Hp) as (e & G1 & G2); exists e; split; [right; exact G1|exact G2]]).
        destruct G as (e & G1 & _ & _ & G2). exists e. split; [exact G1|]. pose proof (K5 e G1). pose proof (Hge (e_pos e) (G2 (e_pos e) (or_introl eq_refl))). lia. }
      destruct (sloppy_go_ok v slop poss (length poss) (lefts ps) ps m q last (le_n _) K2 K3 HC ltac:(lia) K5 Hatt) as (ms & (k & Ek) & Hsound & Hcomp). exists ms, k. splits; [exact Ek|intros r Hr; split; [exact Hf|exact (Hsound r Hr)]|].
      intros _ xs Hpl Hcl. destruct (Hcomp xs) as (r & G1 & ys & G2 & G3); [|exact Hcl|exists r, ys; auto]. clear -K1 Hpl. unfold placed in Hpl. revert xs Hpl. induction K1 as [|x y l l' H HF IH]; intros xs Hpl; inversion Hpl; subst; constructor; [apply (proj2 H); assumption|auto].
    - exists [], 0%nat. splits; [reflexivity|intros r []|]. intros _ xs Hpl _. destruct Hr as (part & G1 & G2). exfalso. clear -Hpl G1 G2. unfold placed in Hpl. induction Hpl as [|x y l l' H HF IH]; [destruct G1|]. destruct G1 as [<-|G1]; [exact (G2 y H)|exact (IH G1)].
  Qed.
  (* a phrase of one part, sloppily: the queue is empty when its top is read *)
  Lemma sloppy_one psort slop part x : 0 < slop -> part_at v x part -> forall f, phq_matchv psort f v (tv_field v) slop [part] = None.
  Proof.
    intros Hs Hx f. unfold phq_matchv. rewrite Z.eqb_refl, (proj2 (Z.ltb_lt _ _) Hs). cbn [length]. destruct (sloppy_fill_ok 1 [part] (pq_new tvpe 1) [] 0 (new_ok _ _ _)) as (r & E & Hr). rewrite E. cbn [obind]. destruct r as [(q & last)|].
    - destruct Hr as (ps & m & K1 & K2 & K3 & _). cbn [app] in K3. inversion K1 as [|p1 e l l' _ HN E1 E2]. subst ps p1 l. inversion HN. subst l'. destruct f as [|f]; [reflexivity|]. cbn [sloppy_go].
      destruct (q_top 1 q m K2) as (p & m' & HPm & _ & _ & _ & (qp & Epop & HQp)); [intros ->; apply Permutation_nil in K3; discriminate|]. rewrite Epop. cbn [obind fst snd]. assert (m' = []) by (pose proof (Permutation_length HPm); pose proof (Permutation_length K3); cbn [length] in *; destruct m'; [reflexivity|cbn [length] in *; lia]). subst m'. pose proof (pi_size _ _ _ _ _ HQp) as Hsz. cbn [length] in Hsz. unfold pq_top. rewrite Hsz. reflexivity.
    - destruct Hr as (part' & [<-|[]] & G). destruct (G x Hx).
  Qed.
End FILL.
