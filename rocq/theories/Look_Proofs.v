(* Rewriting, scorers and the documents a search visits, on the postings of an index. *)
From Verif Require Import Util Strcmp BitVector_Model Dict_Model Post_Model Post_Spec Multi_Model Mte_Model Mtde_Model Mtde_Spec Expand_Model Expand_Spec Fuzzy_Model Fuzzy_Spec Range_Model Range_Spec Range_Proofs Phrase_Spec Tpe_Model Tpe_Spec TpeAlts_Proofs TpeSim_Proofs TpePhrase_Proofs Tsc_Model Tsc_Spec Tsc_Proofs TscOpen_Proofs TscQuery_Proofs Query_Model Leaf_Model Bool_Model Bool_Spec Bool_Proofs BoolSum_Proofs BoolCon_Proofs BoolQuery_Proofs Filter_Model Filter_Spec Filter_Proofs Leaf_Proofs Seg_Model Token_Model Fields_Model Look_Model Look_Spec LookTerms_Proofs.
Open Scope Z_scope.

Lemma uq_ind2 (P : uq -> Prop) : (forall q, (forall cs, q <> UBool cs) -> P q) -> (forall cs, Forall (fun c => P (snd c)) cs -> P (UBool cs)) -> forall q, P q.
Proof.
  intros H0 H1. fix IH 1. intros q. destruct q as [| | | | | |cs| | |]; try (apply H0; intros ? E; discriminate E). apply H1. induction cs as [|c cs IHc]; constructor; [apply IH|exact IHc].
Qed.
Lemma good_ext B k o (P Q : Z -> Prop) : (forall d, P d <-> Q d) -> good B k o P -> good B k o Q.
Proof. intros H. unfold good. destruct o as [s|]; [|intros G d Hd; apply (G d), H, Hd]. intros (L & HB & Hin). exists L. split; [exact HB|]. intros d. rewrite Hin. apply H. Qed.
Lemma good_weak B k o P : good B true o P -> good B k o P.
Proof. unfold good. destruct o as [s|]; [|auto]. intros (L & HB & Hin). exists L. split; [apply beh_weak; exact HB|exact Hin]. Qed.
Lemma oall_ok {A B} (f : A -> option B) : forall l, (forall a, In a l -> f a <> None) -> exists r, oall (map f l) = Some r /\ Forall2 (fun a b => f a = Some b) l r.
Proof.
  induction l as [|a l IH]; intros H; cbn [map oall]; [exists []; auto|]. destruct (f a) as [b|] eqn:E; [|destruct (H a (or_introl eq_refl) E)]. destruct IH as (r & Er & HF); [intros; apply H; right; auto|]. exists (b :: r). cbn [obind]. rewrite Er. auto.
Qed.

(* ---------- queries that are rewritten to themselves *)
Definition single (cs : list (occur * uq)) : bool := match cs with [(Must, _)] | [(Should, _)] => true | _ => false end.
Definition barred (cs : list (occur * uq)) : bool := negb (length cs =? 0)%nat && forallb (fun c : occur * uq => is_not (fst c)) cs.
Fixpoint stable (q : uq) : Prop :=
  match q with
  | UPrefix _ _ _ | UWild _ _ _ | UFuzzy _ _ _ _ _ | URange _ _ | UPhrase _ _ [_] => False
  | UBool cs => (fix go (l : list (occur * uq)) : Prop := match l with [] => True | c :: t => stable (snd c) /\ go t end) cs /\ single cs = false /\ barred cs = false
  | _ => True
  end.
Fixpoint depth (q : uq) : nat :=
  match q with UBool cs => S ((fix go (l : list (occur * uq)) : nat := match l with [] => O | c :: t => Nat.max (depth (snd c)) (go t) end) cs) | _ => O end.
Lemma stable_bool cs : stable (UBool cs) <-> (forall c, In c cs -> stable (snd c)) /\ single cs = false /\ barred cs = false.
Proof.
  cbn [stable]. match goal with |- (?X /\ _) <-> _ => assert (E : X <-> forall c, In c cs -> stable (snd c)) end.
  { induction cs as [|c cs IH]; [split; [intros _ c []|auto]|]. rewrite IH. split; [intros (H1 & H2) x [<-|Hx]; auto|intros H; split; [apply H; left; reflexivity|intros x Hx; apply H; right; exact Hx]]. }
  rewrite E. reflexivity.
Qed.
Lemma depth_bool cs n : (depth (UBool cs) <= S n)%nat <-> forall c, In c cs -> (depth (snd c) <= n)%nat.
Proof.
  cbn [depth]. rewrite <- Nat.succ_le_mono. induction cs as [|c cs IH]; [split; [intros _ c []|lia]|]. rewrite Nat.max_lub_iff, IH. split; [intros (H1 & H2) x [<-|Hx]; auto|intros H; split; [apply H; left; reflexivity|intros x Hx; apply H; right; exact Hx]].
Qed.

Lemma map_pairs {A B C D} (f : A -> C) (g : A -> D) (f' : B -> C) (g' : B -> D) : forall a b, map f a = map f' b -> map g a = map g' b -> map (fun x => (f x, g x)) a = map (fun y => (f' y, g' y)) b.
Proof. induction a as [|x a IH]; intros [|y b] E1 E2; try discriminate; [reflexivity|]. cbn [map] in *. injection E1 as E1 E1'. injection E2 as E2 E2'. rewrite E1, E2, (IH b) by assumption. reflexivity. Qed.
Lemma all_of_pairs {X} (mt : X -> Z -> Prop) cs d : all_of X mt cs d <-> all_of (Z -> Prop) (fun P => P) (map (fun c : occur * X => (fst c, mt (snd c))) cs) d.
Proof.
  unfold all_of. split.
  - intros (H1 & H2 & H3). splits.
    + intros m Hm E. apply in_map_iff in Hm. destruct Hm as (c & <- & Hc). apply H1; assumption.
    + intros (m & Hm & E & G). apply in_map_iff in Hm. destruct Hm as (c & <- & Hc). apply H2. eauto.
    + destruct H3 as [(c & Hc & E)|(c & Hc & E & G)]; [left|right]; exists (fst c, mt (snd c)); (split; [apply in_map_iff; eauto|auto]).
  - intros (H1 & H2 & H3). splits.
    + intros c Hc E. apply (H1 (fst c, mt (snd c))); [apply in_map_iff; eauto|exact E].
    + intros (c & Hc & E & G). apply H2. exists (fst c, mt (snd c)). splits; [apply in_map_iff; eauto|exact E|exact G].
    + destruct H3 as [(m & Hm & E)|(m & Hm & E & G)]; apply in_map_iff in Hm; destruct Hm as (c & <- & Hc); [left|right]; exists c; auto.
Qed.
Lemma needed_fst {X} (a : list (occur * X)) : needed a = length (filter (fun o => match o with Must => true | _ => false end) (map fst a)).
Proof. unfold needed. induction a as [|(o, x) a IH]; [reflexivity|]. cbn [map filter fst]. destruct o; cbn [length]; auto. Qed.
Lemma combine_map {A B C} (f : A -> C) (g : B -> C) {D} (h : B -> D) : forall a b, map f a = map g b -> forall x p, In (x, p) (combine a (map h b)) -> exists y, In y b /\ f x = g y /\ p = h y.
Proof.
  induction a as [|u a IH]; intros [|v b] E x p H; try discriminate; [destruct H|]. cbn [map combine] in *. injection E as E1 E2. destruct H as [H|H]; [injection H as <- <-; exists v; auto using in_eq|]. destruct (IH b E2 x p H) as (y & Hy & G). exists y. split; [right; exact Hy|exact G].
Qed.
Lemma uniform {A} (P : A -> nat -> Prop) (cs : list A) : (forall c, In c cs -> exists n, forall fu, (n <= fu)%nat -> P c fu) -> exists n, forall fu, (n <= fu)%nat -> forall c, In c cs -> P c fu.
Proof.
  induction cs as [|c cs IH]; intros H; [exists O; intros fu _ c []|]. destruct IH as (n & Hn); [intros; apply H; right; auto|]. destruct (H c (or_introl eq_refl)) as (n2 & H2). exists (Nat.max n n2). intros fu Hfu x [<-|Hx]; [apply H2; lia|apply Hn; [lia|exact Hx]].
Qed.

Section A.
  Variables (calc : Z -> Z -> Z) (sim : fscore -> Z).
  Variable srt : list (list Z) -> list nat.
  Variables (r : prdr) (del : Z -> bool) (mx : Z).
  Variable fld : list Z -> option Z.
  Notation rewrite1 := (rewrite1 calc sim r fld).
  Notation isea_rewrite := (isea_rewrite calc sim r fld).
  Notation q_weight := (q_weight calc sim r fld).
  Notation scorer := (scorer srt r del mx fld).

  (* the part of rewrite1 for several clauses *)
  Definition rewrite_all (fu : nat) (cs : list (occur * uq)) : option (uq * bool) :=
    do xs <- oall (map (fun c : occur * uq => do x <- rewrite1 fu (snd c); Some (fst c, x)) cs);
    let cs' := map (fun y : occur * (uq * bool) => (fst y, fst (snd y))) xs in
    let changed := existsb (fun y : occur * (uq * bool) => snd (snd y)) xs in
    if barred cs then (if (length cs <? MAX_CLAUSES)%nat then Some (UBool (cs' ++ [(Must, UAll)]), changed) else None) else Some (UBool cs', changed).
  Lemma rewrite_bool fu cs : rewrite1 fu (UBool cs) = match cs with [(Must, c)] | [(Should, c)] => do x <- rewrite1 fu c; Some (fst x, true) | _ => rewrite_all fu cs end.
  Proof. destruct cs as [|([| |], c) [|c2 cs]]; reflexivity. Qed.
  Lemma stable_rw fu : forall q, stable q -> rewrite1 fu q = Some (q, false).
  Proof.
    induction q as [q Hq|cs IH] using uq_ind2; intros HS; [destruct q as [f x|f p k|f p k|f x pl mn k|f g| |cs|f m|f g|f slop ps]; cbn [stable] in HS; try tauto; try reflexivity; [destruct (Hq cs eq_refl)|destruct ps as [|? [|? ps]]; [|destruct HS|]; cbn [Look_Model.rewrite1]; repeat match goal with p : (Z * list (list Z))%type |- _ => destruct p as (? & [|? [|? ?]]) end; reflexivity]|].
    apply stable_bool in HS. destruct HS as (HS & H1 & H2). rewrite rewrite_bool. rewrite Forall_forall in IH.
    assert (E : rewrite_all fu cs = Some (UBool cs, false)).
    { unfold rewrite_all. rewrite H2. assert (G : forall l, (forall c, In c l -> In c cs) -> oall (map (fun c : occur * uq => do x <- rewrite1 fu (snd c); Some (fst c, x)) l) = Some (map (fun c => (fst c, (snd c, false))) l)).
      { induction l as [|c l IHl]; intros Hl; [reflexivity|]. cbn [map oall]. rewrite (IH c) by auto using in_eq. cbn [obind]. rewrite IHl by auto using in_cons. reflexivity. }
      rewrite G by auto. cbn [obind]. cbv zeta. f_equal. f_equal; [f_equal; rewrite map_map; cbn [fst snd]; rewrite <- map_id; apply map_ext; intros (o, q); reflexivity|]. clear. induction cs as [|c cs IH]; [reflexivity|exact IH]. }
    rewrite E. destruct cs as [|([| |], c) [|c2 cs]]; try reflexivity; discriminate.
  Qed.
  Lemma stable_sea fu n q : stable q -> (0 < n)%nat -> isea_rewrite fu n q = Some q.
  Proof. intros HS Hn. destruct n as [|n]; [lia|]. cbn [Look_Model.isea_rewrite]. rewrite (stable_rw fu q HS). reflexivity. Qed.
  Lemma stable_weight fu : forall q n, stable q -> (depth q + 1 < n)%nat -> q_weight fu n q = Some q.
  Proof.
    induction q as [q Hq|cs IH] using uq_ind2; intros n HS Hn; (destruct n as [|n]; [lia|]); cbn [Look_Model.q_weight]; rewrite (stable_sea fu n _ HS) by lia; cbn [obind].
    - destruct q; cbn [stable] in HS; try tauto; try reflexivity. destruct (Hq cs eq_refl).
    - apply stable_bool in HS. destruct HS as (HS & _ & _). rewrite Forall_forall in IH. assert (HD : forall c, In c cs -> (depth (snd c) + 1 < n)%nat). { destruct n as [|n]; [lia|]. destruct n as [|n]; [cbn [depth] in Hn; lia|]. assert (G : (depth (UBool cs) <= S n)%nat) by lia. rewrite depth_bool in G. intros c Hc. specialize (G c Hc). lia. }
      assert (G : forall l, (forall c, In c l -> In c cs) -> oall (map (fun c : occur * uq => do x <- q_weight fu n (snd c); Some (fst c, x)) l) = Some l).
      { induction l as [|c l IHl]; intros Hl; [reflexivity|]. cbn [map oall]. rewrite (IH c) by auto using in_eq. cbn [obind]. rewrite IHl by auto using in_cons. destruct c. reflexivity. }
      rewrite G by auto. reflexivity.
  Qed.
  Lemma weight_of fu q q' b n : rewrite1 fu q = Some (q', b) -> stable q' -> (depth q' + 3 < n)%nat -> q_weight fu n q = Some q'.
  Proof.
    intros E HS Hn. destruct n as [|n]; [lia|]. cbn [Look_Model.q_weight]. assert (G : isea_rewrite fu n q = Some q'). { destruct n as [|n]; [lia|]. cbn [Look_Model.isea_rewrite]. rewrite E. cbn [obind fst snd]. destruct b; [|reflexivity]. apply stable_sea; [exact HS|lia]. }
    rewrite G. cbn [obind]. pose proof (stable_weight fu q' (S n) HS ltac:(lia)) as W. cbn [Look_Model.q_weight] in W. rewrite (stable_sea fu n q' HS) in W by lia. exact W.
  Qed.

  (* ---------- scorers *)
  Variable i : pidx.
  Hypothesis HO : pidx_open i r.
  Hypothesis HF : forall f n, fld f = Some n -> pidx_field i n.
  Hypothesis HB : forall f n P d, fld f = Some n -> has_term i n del P d -> 0 <= d < mx.
  Hypothesis Hmx : 0 <= mx.
  Hypothesis HP : forall f n t x, fld f = Some n -> In x (plook i n t) -> fst x < C_INT_MAX /\ snd x <> [].
  Hypothesis HQ : qs_ok srt.
  Definition ihas (d : Z) (f : list Z) (P : list Z -> Prop) : Prop := match fld f with Some n => has_term i n del P d | None => False end.
  Definition ihasp (d : Z) (f : list Z) (slop : Z) (ps : list (Z * list (list Z))) : Prop := ps <> [] /\ match fld f with Some n => has_near i n del slop ps d | None => False end.
  Definition iord (f : list Z) : Prop := forall n t x, fld f = Some n -> In x (plook i n t) -> StronglySorted Z.le (snd x).
  Definition istarts (z : Z) (f : list Z) : Prop := forall n t x, fld f = Some n -> In x (plook i n t) -> Forall (fun y => z <= y) (snd x).
  Definition ifew (k : nat) (f : list Z) (P : list Z -> Prop) : Prop := match fld f with Some n => at_most k i n P | None => True end.
  Notation here d := (0 <= d < mx /\ del d = false).
  Notation asks q := (fun d => here d /\ sat sim (ihas d) (ihasp d) q).
  Lemma ihas_here d f P : ihas d f P -> here d.
  Proof. unfold ihas. destruct (fld f) as [n|] eqn:E; [|tauto]. intros H. split; [eapply HB; eauto|]. apply H. Qed.

  Lemma term_sc f x t : tir_used r t -> exists s t' L, scorer O (UTerm f x) t = Some (Some s, t') /\ tir_used r t' /\ Beh mx true s None L /\ forall d, In d L <-> ihas d f (eq x).
  Proof.
    intros U. destruct (dicts_of i r HO) as (y & HD). cbn [Look_Model.scorer].
    assert (G : forall de, DL i r y de (match fld f with Some n => plook i n x | None => [] end) -> exists L, Beh mx true (Leaf (LTerm r del (rb_new TSC_READ 0 de))) None L /\ forall d, In d L <-> ihas d f (eq x)).
    { intros de HDL. exists (map fst (hits i del (fld f) x)).
      assert (EQ : forall d, In d (map fst (hits i del (fld f) x)) <-> ihas d f (eq x)).
      { intros d. unfold hits, ihas. destruct (fld f) as [n|]; [|cbn; tauto]. unfold live. rewrite map_map. cbn [fst]. rewrite in_map_iff. split.
        - intros (p & <- & Hp). apply filter_In in Hp. destruct Hp as (Hp & Hd). split; [destruct (del (fst p)); [discriminate|reflexivity]|]. exists x, p. auto.
        - intros (Hd & t0 & p & <- & Hp & E). exists p. split; [exact E|]. apply filter_In. split; [exact Hp|]. rewrite E, Hd. reflexivity. }
      split; [|exact EQ]. destruct (hits_incr i r del (fld f) x HO) as (S1 & S2). apply term_leaf.
      - intros os. apply (tsc_run_ok i r y del HD). destruct (fld f) as [n|]; [|change (hits i del None x) with (live del [])]; apply rb_new_ok; (unfold TSC_READ; lia) || exact HDL.
      - clear -S1. induction S1 as [|a l S1 IH HH]; cbn [map]; constructor; [exact IH|]. apply Forall_map. exact HH.
      - apply Forall_forall. intros d Hd. apply EQ in Hd. apply ihas_here in Hd. tauto. }
    destruct (fld f) as [n|] eqn:Ef.
    - destruct (seek_new i r y t n x HD U (HF f n Ef)) as (de & de' & t' & E1 & E2 & HDL). rewrite E1. cbn [obind]. rewrite E2. cbn [obind fst snd]. destruct (G de' HDL) as (L & G1 & G2). exists (Leaf (LTerm r del (rb_new TSC_READ 0 de'))), t', L. splits; auto.
      clear -U E2. unfold pe_seek in E2. destruct r as [g|mp gs st], de as [e|m]; try discriminate.
      + destruct (tir_get_ti_field (g_dict (fst g)) (snd g) t 0 n x) as [(z, t2)|] eqn:E; [|discriminate]. cbn [obind] in E2. apply some_inj in E2. apply pair_equal_spec in E2. destruct E2 as (_ & <-). eapply U_look; eauto.
      + destruct (mtde_seek false gs st mp m n x) as [m'|]; [|discriminate]. cbn [obind] in E2. apply some_inj in E2. apply pair_equal_spec in E2. destruct E2 as (_ & <-). exact U.
    - destruct (docs_new i r y HD) as (de & E1 & HDL). rewrite E1. cbn [obind]. destruct (G de HDL) as (L & G1 & G2). exists (Leaf (LTerm r del (rb_new TSC_READ 0 de))), t, L. splits; auto.
  Qed.
  Lemma term_fu fu f x t : scorer fu (UTerm f x) t = scorer O (UTerm f x) t.
  Proof. reflexivity. Qed.
  Lemma multi_sc fu f n m P t : fld f = Some n -> finds i r del n m P -> exists so, scorer fu (UMulti f m) t = Some (so, t) /\ good mx true so (fun d => ihas d f P).
  Proof.
    intros Ef (M & M1 & M2 & l & sc & L1 & L2 & L3). cbn [Look_Model.scorer]. rewrite L1. cbn [obind]. rewrite Ef, L2. cbn [obind].
    assert (EQ : forall d, In d (map fst M) <-> ihas d f P) by (intros d; rewrite M2; unfold ihas; rewrite Ef; reflexivity).
    eexists. split; [reflexivity|]. destruct sc as [(s & names)|]; cbn [option_map fst good].
    - exists (map fst M). split; [|exact EQ]. apply (multi_leaf mx r del s M L3).
      + clear -M1. induction M1 as [|a l S1 IH HH]; cbn [map]; constructor; [exact IH|]. apply Forall_map. exact HH.
      + apply Forall_forall. intros d Hd. apply EQ in Hd. apply ihas_here in Hd. tauto.
    - intros d Hd. apply EQ in Hd. rewrite L3 in Hd. exact Hd.
  Qed.
  Lemma none_sc fu f m t : fld f = None -> query_terms m <> None -> scorer fu (UMulti f m) t = Some (None, t).
  Proof. intros Ef Hm. cbn [Look_Model.scorer]. destruct (query_terms m) as [l|]; [|congruence]. cbn [obind]. rewrite Ef. unfold multi_tw_scorer. destruct (map fst l); reflexivity. Qed.
  Lemma bits_sc f g : ((Z.to_nat mx < 128 \/ Z.to_nat mx mod 32 <> 0)%nat \/ ~ ihas (mx - 1) f (in_range g)) ->
    exists n, forall fu, (n <= fu)%nat -> exists so, (forall t, scorer fu (UBits f g) t = Some (so, t)) /\ good mx true so (fun d => ihas d f (in_range g)).
  Proof.
    intros Hsp. assert (G : exists n, forall fu, (n <= fu)%nat -> exists bv, rfilt_get_bv fu r del (fld f) g = Some bv /\ forall d, In d bv <-> ihas d f (in_range g)).
    { unfold ihas. destruct (fld f) as [n|] eqn:Ef; [apply text_ok; [exact HO|eapply HF; eauto]|]. exists O. intros fu _. exists []. split; [reflexivity|]. intros d. cbn. tauto. }
    destruct G as (n & G). exists n. intros fu Hfu. destruct (G fu Hfu) as (bv & E & Hin). cbn [Look_Model.scorer]. rewrite E. cbn [obind].
    set (l := map Z.to_nat (rev bv)). assert (Hl : forall k, In k l <-> ihas (Z.of_nat k) f (in_range g)).
    { intros k. unfold l. rewrite in_map_iff. split.
      - intros (d & <- & Hd). apply in_rev in Hd. apply Hin in Hd. pose proof (ihas_here _ _ _ Hd). rewrite Z2Nat.id by lia. exact Hd.
      - intros H. exists (Z.of_nat k). split; [apply Nat2Z.id|]. apply -> in_rev. apply Hin. exact H. }
    assert (HW : within (Z.to_nat mx) l) by (apply Forall_forall; intros k Hk; apply Hl in Hk; apply ihas_here in Hk; lia).
    assert (HS : spare (Z.to_nat mx) l).
    { destruct Hsp as [[H|H]|H]; [left; exact H|right; left; exact H|]. right. right. intros C. pose proof C as C2. apply Hl in C. assert (E0 : Z.of_nat (Z.to_nat mx - 1) = mx - 1). { unfold within in HW. rewrite Forall_forall in HW. specialize (HW _ C2). lia. } rewrite E0 in C. exact (H C). }
    destruct (fresh_V (Z.to_nat mx) l HW) as (v & Ev & HV & HR). rewrite Ev. cbn [obind]. eexists. split; [reflexivity|]. cbn [good]. exists (above_l l (Z.to_nat mx) 0). split.
    - pose proof (bits_leaf (Z.to_nat mx) l 0 v HV (HR HS) HW) as BL. rewrite Z2Nat.id in BL by exact Hmx. exact BL.
    - intros d. rewrite (above_in l _ d HW). split; [intros (k & -> & Hk); apply Hl; exact Hk|]. intros H. exists (Z.to_nat d). pose proof (ihas_here _ _ _ H). rewrite Z2Nat.id by lia. split; [reflexivity|]. apply Hl. rewrite Z2Nat.id by lia. exact H.
  Qed.

  (* ---------- phrases *)
  Lemma ihasp_here d f slop ps : ihasp d f slop ps -> here d.
  Proof.
    unfold ihasp. intros (Hne & H). destruct (fld f) as [n|] eqn:E; [|tauto]. destruct H as (Hd & xs & H & _). split; [|exact Hd]. destruct ps as [|p ps]; [congruence|]. inversion H as [|? ? ? ? (t & x & _ & Hx & Ex & _) _]; subst. eapply (HB f n (fun _ => True)); [exact E|]. split; [exact Hd|]. exists t, x. auto.
  Qed.
  Lemma one_phrase d f slop o ts : ihasp d f slop [(o, ts)] <-> ihas d f (fun t => In t ts).
  Proof.
    unfold ihasp, ihas. destruct (fld f) as [n|] eqn:Ef; [|tauto]. unfold has_near, has_term. split.
    - intros (_ & Hd & xs & H & _). inversion H as [|? ? ? ? (t & x & H1 & H2 & H3 & _) _]; subst. split; [exact Hd|]. exists t, x. auto.
    - intros (Hd & t & x & H1 & H2 & H3). split; [discriminate|]. split; [exact Hd|]. destruct (HP f n t x Ef H2) as (_ & Hn). destruct (snd x) as [|z l] eqn:Ex; [congruence|]. exists [z - o]. split; [|repeat constructor]. constructor; [|constructor]. exists t, x. cbn [fst snd]. splits; auto. rewrite Ex. left. lia.
  Qed.
  Lemma phrase_sc fu f slop ps t : ps = [] \/ iord f /\ (slop = 0 \/ NoDup (flat_map snd ps) /\ (2 <= length ps)%nat /\ exists p, In p ps /\ istarts (fst p) f) -> tir_used r t -> exists so t', scorer fu (UPhrase f slop ps) t = Some (so, t') /\ tir_used r t' /\ good mx true so (fun d => ihasp d f slop ps).
  Proof.
    intros Ho U. cbn [Look_Model.scorer]. destruct ps as [|p ps].
    { exists None, t. splits; auto. intros d (C & _). congruence. }
    destruct Ho as [Ho|(Ho & Hn)]; [discriminate|].
    destruct (fld f) as [n|] eqn:Ef. 2:{ exists None, t. splits; auto. intros d (_ & C). rewrite Ef in C. exact C. }
    destruct (dicts_of i r HO) as (y & HD). destruct (scorer_opens i r y del srt t n slop (p :: ps) HD HO U (HF f n Ef) ltac:(discriminate)) as (ph & s & t' & E & U' & HFw & HPL). rewrite E. cbn [obind option_map fst snd]. eexists. exists t'. splits; [reflexivity|exact U'|]. cbn [good].
    assert (Hio : in_order i n (flat_map snd (p :: ps))) by (intros t0 x _ Hx; destruct (HP f n t0 x Ef Hx) as (H1 & H2); splits; auto; apply (Ho n t0 x Ef Hx)).
    assert (Hph : phrase_ok ph) by (eapply ph_ok; eauto; discriminate).
    assert (Hno : near_ok i n slop (p :: ps)). { destruct Hn as [->|(N1 & N2 & p0 & N3 & N4)]; [left; reflexivity|right]. splits; auto. exists p0. split; [exact N3|]. intros t0 x _ Hx. apply (N4 n t0 x Ef Hx). }
    pose proof (near_fits i r del n slop (p :: ps) ph HO HPL Hno) as Hfit.
    assert (Hin : forall d, window_in slop ph d <-> ihasp d f slop (p :: ps)) by (intros d; rewrite (ph_near i r del n HO (p :: ps) ph HPL slop d) by discriminate; unfold ihasp; rewrite Ef; split; [intros G; split; [discriminate|exact G]|tauto]).
    destruct (phrase_docs slop ph Hph) as (L & L1 & L2). exists L. split; [|intros d; rewrite L2; apply Hin]. apply (phrase_leaf mx i r y del srt slop _ ph s L HD HQ Hph Hfit HFw); auto. apply Forall_forall. intros d Hd. apply L2, Hin, ihasp_here in Hd. tauto.
  Qed.

  (* ---------- all clauses *)
  Definition go_all (fu : nat) := fix go (l : list (occur * uq)) (t : tir) : option (list (occur * option sc) * tir) :=
    match l with
    | [] => Some ([], t)
    | (o, w) :: l' => do y <- scorer fu w t; match o, fst y with Must, None => Some ([(Must, None)], snd y) | _, _ => do z <- go l' (snd y); Some ((o, fst y) :: fst z, snd z) end
    end.
  Lemma scorer_bool fu ws t : scorer fu (UBool ws) t = do x <- go_all fu ws t; Some (add_all (fst x) [] [] [], snd x).
  Proof. reflexivity. Qed.
  (* a rewritten query with what it is for: W is calm k -> P *)
  Definition scored (fu : nat) (w : uq) (cm : bool -> bool) (P : Z -> Prop) : Prop :=
    forall t, tir_used r t -> exists so t', scorer fu w t = Some (so, t') /\ tir_used r t' /\ forall k, cm k = true -> good mx k so P.
  Notation item := (option sc * ((bool -> bool) * (Z -> Prop)))%type.
  Lemma go_ok fu : forall (l : list (occur * uq)) (ps : list ((bool -> bool) * (Z -> Prop))), Forall2 (fun c p => scored fu (snd c) (fst p) (snd p)) l ps -> forall t, tir_used r t ->
    exists x t', go_all fu l t = Some (x, t') /\ tir_used r t' /\
      ((exists (its : list (occur * item)), x = sc_of item fst its /\ map fst its = map fst l /\ map (fun c => snd (snd c)) its = ps /\ forall c, In c its -> forall k, fst (snd (snd c)) k = true -> good mx k (fst (snd c)) (snd (snd (snd c)))) \/
       add_all x [] [] [] = None /\ exists c p, In (c, p) (combine l ps) /\ fst c = Must /\ forall k, fst p k = true -> forall d, ~ snd p d).
  Proof.
    induction 1 as [|(o, w) p l ps H HH IH]; intros t U.
    - exists [], t. split; [reflexivity|]. split; [exact U|]. left. exists []. splits; try reflexivity. intros c [].
    - destruct (H t U) as (so & t1 & E1 & U1 & G1). destruct (IH t1 U1) as (x & t2 & E2 & U2 & G2). cbn [snd] in E1. cbn [go_all]. rewrite E1. cbn [obind fst snd].
      destruct (match o, so with Must, None => true | _, _ => false end) eqn:Eo.
      + destruct o; try discriminate. destruct so; [discriminate|]. exists [(Must, None)], t1. split; [reflexivity|]. split; [exact U1|]. right. split; [reflexivity|]. exists (Must, w), p. splits; [left; reflexivity|reflexivity|]. intros k Hk. exact (G1 k Hk).
      + exists ((o, so) :: x), t2. assert (ET : (match o, so with Must, None => Some ([(Must, @None sc)], t1) | _, _ => do z <- go_all fu l t1; Some ((o, so) :: fst z, snd z) end) = Some ((o, so) :: x, t2)) by (destruct o, so; try discriminate; rewrite E2; reflexivity).
        split; [exact ET|]. split; [exact U2|]. destruct G2 as [(its & -> & I1 & I2 & I3)|(N1 & c & p' & N2 & N3 & N4)].
        * left. exists ((o, (so, p)) :: its). cbn [sc_of map fst snd]. splits; [reflexivity|rewrite I1; reflexivity|rewrite I2; reflexivity|]. intros c [<-|Hc]; [cbn [fst snd]; exact G1|apply I3; exact Hc].
        * right. split.
          -- assert (GN : forall x a b c0, add_all x [] [] [] = None -> add_all x a b c0 = None).
             { clear. intros x. enough (K : forall a b c0 a' b' c', add_all x a b c0 = None -> add_all x a' b' c' = None) by (intros; eapply K; eauto). induction x as [|(o, [s|]) x IH]; intros a b c0 a' b' c'; cbn [add_all]; [discriminate| |]; destruct o; eauto. }
             destruct o, so as [s|]; try discriminate; cbn [add_all]; apply GN; exact N1.
          -- exists c, p'. splits; auto. right. exact N2.
  Qed.
  (* the meaning of clauses and of those that are rewritten *)
  Lemma comb_all (cs : list (occur * uq)) d : barred cs = false -> here d /\ comb (map (fun c : occur * uq => (fst c, sat sim (ihas d) (ihasp d) (snd c))) cs) <->
    all_of uq (fun q d => asks q d) cs d.
  Proof.
    intros Hb. unfold comb, all_of. assert (NB : ~ (map (fun c : occur * uq => (fst c, sat sim (ihas d) (ihasp d) (snd c))) cs <> [] /\ forall m, In m (map (fun c : occur * uq => (fst c, sat sim (ihas d) (ihasp d) (snd c))) cs) -> fst m = MustNot)).
    { intros (H1 & H2). unfold barred in Hb. apply andb_false_iff in Hb. destruct Hb as [Hb|Hb].
      - apply negb_false_iff, Nat.eqb_eq in Hb. destruct cs; [apply H1; reflexivity|discriminate].
      - apply not_true_iff_false in Hb. apply Hb. apply forallb_forall. intros c Hc. assert (G : fst (fst c, sat sim (ihas d) (ihasp d) (snd c)) = MustNot) by (apply H2; apply in_map_iff; eauto). cbn [fst] in G. rewrite G. reflexivity. }
    split.
    - intros (Hh & H1 & H2 & H3). splits.
      + intros c Hc E. split; [exact Hh|]. apply (H1 (fst c, sat sim (ihas d) (ihasp d) (snd c))); [apply in_map_iff; eauto|exact E].
      + intros (c & Hc & E & _ & G). apply (H2 (fst c, sat sim (ihas d) (ihasp d) (snd c))); [apply in_map_iff; eauto|exact E|exact G].
      + destruct H3 as [(m & Hm & E)|[(m & Hm & E & G)|H3]]; [left|right|destruct (NB H3)]; apply in_map_iff in Hm; destruct Hm as (c & <- & Hc); exists c; auto.
    - intros (H1 & H2 & H3). assert (Hh : here d) by (destruct H3 as [(c & Hc & E)|(c & Hc & _ & G & _)]; [exact (proj1 (H1 c Hc E))|exact G]). split; [exact Hh|]. splits.
      + intros m Hm E. apply in_map_iff in Hm. destruct Hm as (c & <- & Hc). exact (proj2 (H1 c Hc E)).
      + intros m Hm E G. apply in_map_iff in Hm. destruct Hm as (c & <- & Hc). apply H2. exists c. cbn [fst snd] in *. auto.
      + destruct H3 as [(c & Hc & E)|(c & Hc & E & _ & G)]; [left|right; left]; exists (fst c, sat sim (ihas d) (ihasp d) (snd c)); (split; [apply in_map_iff; eauto|auto]).
  Qed.

  Lemma bool_scored fu (cs cs' : list (occur * uq)) : Forall2 (fun c c' => fst c' = fst c /\ scored fu (snd c') (fun k => calm k (snd c)) (asks (snd c))) cs cs' ->
    scored fu (UBool cs') (fun k => calm k (UBool cs)) (all_of uq (fun q d => asks q d) cs).
  Proof.
    intros H2. assert (E0 : map fst cs' = map fst cs) by (clear -H2; induction H2 as [|c c' cs cs' (E & _) HH IH]; [reflexivity|cbn [map]; rewrite E, IH; reflexivity]).
    set (g := fun c : occur * uq => (fun k => calm k (snd c), fun d => asks (snd c) d)).
    assert (HG : Forall2 (fun c p => scored fu (snd c) (fst p) (snd p)) cs' (map g cs)) by (clear -H2; induction H2 as [|c c' cs cs' (_ & E) HH IH]; [constructor|constructor; [exact E|exact IH]]).
    intros t U. destruct (go_ok fu cs' (map g cs) HG t U) as (x & t' & E & U' & G). rewrite scorer_bool, E. cbn [obind fst snd]. exists (add_all x [] [] []), t'. splits; auto. intros k Hk.
    cbn [calm] in Hk. apply andb_true_iff in Hk. destruct Hk as (Hk1 & Hk2). rewrite forallb_forall in Hk2.
    destruct G as [(its & -> & I1 & I2 & I3)|(EN & c & p & Hc & Ec & HN)].
    - assert (EQ : map (fun it => (fst it, snd (snd it))) its = map (fun c => (fst c, g c)) cs) by (apply map_pairs; congruence).
      assert (EN : needed its = reqs cs) by (change (reqs cs) with (needed cs); rewrite !needed_fst; congruence).
      assert (HI : forall it, In it its -> exists c, In c cs /\ fst c = fst it /\ g c = snd (snd it)).
      { intros it Hit. assert (G : In (fst it, snd (snd it)) (map (fun c => (fst c, g c)) cs)) by (rewrite <- EQ; apply in_map_iff; eauto). apply in_map_iff in G. destruct G as (c & G & Hc). apply pair_equal_spec in G. destruct G. exists c. auto. }
      eapply good_ext; [|apply (bool_good mx _ fst (fun it => snd (snd it)) k its)].
      + intros d. etransitivity; [apply all_of_pairs|]. etransitivity; [|symmetry; apply all_of_pairs]. pose proof (f_equal (map (fun y : occur * ((bool -> bool) * (Z -> Prop)) => (fst y, snd (snd y)))) EQ) as ER.
        rewrite !map_map in ER. cbn [fst snd] in ER.
        match goal with |- all_of _ _ ?A1 _ <-> all_of _ _ ?B1 _ => replace A1 with B1; reflexivity end.
      + rewrite EN. exact Hk1.
      + intros it Hit Em. apply (I3 it Hit). destruct (HI it Hit) as (c & Hc & Ec & Eg). rewrite <- Eg. specialize (Hk2 c Hc). rewrite Ec, Em in Hk2. rewrite EN. exact Hk2.
      + intros it Hit Em. apply (I3 it Hit). destruct (HI it Hit) as (c & Hc & Ec & Eg). rewrite <- Eg. specialize (Hk2 c Hc). rewrite Ec, Em in Hk2. exact Hk2.
      + intros Z0 it Hit Em. apply (I3 it Hit). destruct (HI it Hit) as (c & Hc & Ec & Eg). rewrite <- Eg. specialize (Hk2 c Hc). rewrite Ec, Em in Hk2. rewrite EN in Z0. rewrite Z0 in Hk2. exact Hk2.
    - rewrite EN. cbn [good]. intros d (G & _). destruct (combine_map fst fst g cs' cs E0 c p Hc) as (c0 & Hc0 & E1 & ->). specialize (Hk2 c0 Hc0). rewrite <- E1, Ec in Hk2. apply (HN _ Hk2 d). apply (G c0 Hc0). congruence.
  Qed.
  Lemma calm_all k cs : barred cs = true -> calm k (UBool cs) = true -> calm k (UBool (cs ++ [(Must, UAll)])) = true.
  Proof.
    intros Hb H. unfold barred in Hb. apply andb_true_iff in Hb. destruct Hb as (_ & Hb). rewrite forallb_forall in Hb. cbn [calm] in *. apply andb_true_iff in H. destruct H as (_ & H). rewrite forallb_forall in H.
    assert (E : reqs (cs ++ [(Must, UAll)]) = 1%nat). { unfold reqs. rewrite filter_app. replace (filter (fun c : occur * uq => match fst c with Must => true | _ => false end) cs) with (@nil (occur * uq)); [reflexivity|]. clear H. induction cs as [|c cs IH]; [reflexivity|]. cbn [filter]. specialize (Hb c (or_introl eq_refl)) as G. destruct (fst c); try discriminate. apply IH. intros; apply Hb; right; auto. }
    rewrite E. cbn [Nat.leb andb negb]. rewrite forallb_app. apply andb_true_iff. split; [|reflexivity]. apply forallb_forall. intros c Hc. specialize (Hb c Hc). specialize (H c Hc). destruct (fst c); try discriminate. exact H.
  Qed.
  Lemma comb_barred (cs : list (occur * uq)) d : barred cs = true -> here d /\ comb (map (fun c : occur * uq => (fst c, sat sim (ihas d) (ihasp d) (snd c))) cs) <->
    all_of uq (fun q d => asks q d) (cs ++ [(Must, UAll)]) d.
  Proof.
    intros Hb. unfold barred in Hb. apply andb_true_iff in Hb. destruct Hb as (Hb0 & Hb). rewrite forallb_forall in Hb. assert (Hn : forall c, In c cs -> fst c = MustNot) by (intros c Hc; specialize (Hb c Hc); destruct (fst c); try discriminate; reflexivity).
    unfold comb, all_of. split.
    - intros (Hh & _ & H2 & _). splits.
      + intros c Hc E. apply in_app_iff in Hc. destruct Hc as [Hc|[<-|[]]]; [rewrite (Hn c Hc) in E; discriminate|]. cbn [snd sat]. auto.
      + intros (c & Hc & E & _ & G). apply in_app_iff in Hc. destruct Hc as [Hc|[<-|[]]]; [|discriminate]. apply (H2 (fst c, sat sim (ihas d) (ihasp d) (snd c))); [apply in_map_iff; eauto|exact E|exact G].
      + left. exists (Must, UAll). split; [apply in_app_iff; right; left; reflexivity|reflexivity].
    - intros (H1 & H2 & _). specialize (H1 (Must, UAll)). destruct H1 as (Hh & _); [apply in_app_iff; right; left; reflexivity|reflexivity|]. split; [exact Hh|]. splits.
      + intros m Hm E. apply in_map_iff in Hm. destruct Hm as (c & <- & Hc). cbn [fst] in E. rewrite (Hn c Hc) in E. discriminate.
      + intros m Hm E G. apply in_map_iff in Hm. destruct Hm as (c & <- & Hc). apply H2. exists c. cbn [fst snd] in *. splits; auto. apply in_app_iff. auto.
      + right. right. split; [destruct cs; [discriminate|discriminate]|]. intros m Hm. apply in_map_iff in Hm. destruct Hm as (c & <- & Hc). apply Hn. exact Hc.
  Qed.
  Lemma comb_one o q d : o <> MustNot -> comb [(o, sat sim (ihas d) (ihasp d) q)] <-> sat sim (ihas d) (ihasp d) q.
  Proof.
    intros Ho. unfold comb. split.
    - intros (H1 & _ & [(m & [<-|[]] & E)|[(m & [<-|[]] & E & G)|(_ & H)]]); [apply (H1 (o, sat sim (ihas d) (ihasp d) q)); [left; reflexivity|exact E]|exact G|]. destruct Ho. apply (H (o, sat sim (ihas d) (ihasp d) q)). left. reflexivity.
    - intros H. splits; [intros m [<-|[]] _; exact H|intros m [<-|[]] E; destruct (Ho E)|]. destruct o; [right; left|left|congruence]; eexists; (split; [left; reflexivity|auto]).
  Qed.

  Notation LIM := (limits calc sim ifew (fun f P => ihas (mx - 1) f P) iord istarts (Z.to_nat mx)).
  Lemma limits_bool cs : LIM (UBool cs) -> (forall c, In c cs -> LIM (snd c)) /\ (barred cs = true -> (length cs < MAX_CLAUSES)%nat).
  Proof.
    cbn [limits]. intros (H1 & H2). split.
    - clear H2. induction cs as [|c cs IH]; intros x Hx; [destruct Hx|]. destruct H1 as (H0 & H1). destruct Hx as [<-|Hx]; [exact H0|apply IH; assumption].
    - intros Hb. destruct H2 as [(c & Hc & E)|H2]; [|exact H2]. unfold barred in Hb. apply andb_true_iff in Hb. destruct Hb as (_ & Hb). rewrite forallb_forall in Hb. specialize (Hb c Hc). destruct (fst c); try discriminate. congruence.
  Qed.
  Definition done (fu : nat) (q : uq) : Prop := exists q' b, rewrite1 fu q = Some (q', b) /\ stable q' /\ (depth q' <= S (depth q))%nat /\ scored fu q' (fun k => calm k q) (asks q).
  Lemma good_scored fu w q (P : Z -> Prop) : (forall d, P d <-> asks q d) -> (forall t, tir_used r t -> exists so t', scorer fu w t = Some (so, t') /\ tir_used r t' /\ good mx true so P) -> scored fu w (fun k => calm k q) (asks q).
  Proof. intros E H t U. destruct (H t U) as (so & t' & E1 & U1 & G). exists so, t'. splits; auto. intros k _. eapply good_ext; [exact E|]. apply good_weak. exact G. Qed.
  Lemma asks_phrase f slop ps d : ihasp d f slop ps <-> here d /\ ihasp d f slop ps.
  Proof. split; [|tauto]. intros H. split; [eapply ihasp_here; eauto|exact H]. Qed.
  Lemma asks_has f P d : ihas d f P <-> here d /\ ihas d f P.
  Proof. split; [|tauto]. intros H. split; [eapply ihas_here; eauto|exact H]. Qed.
  Lemma term_done fu f x q : (forall d, sat sim (ihas d) (ihasp d) q <-> ihas d f (eq x)) -> scored fu (UTerm f x) (fun k => calm k q) (asks q).
  Proof.
    intros E. apply (good_scored fu (UTerm f x) q (fun d => ihas d f (eq x))); [intros d; rewrite E; apply asks_has|]. intros t U. rewrite term_fu. destruct (term_sc f x t U) as (s & t' & L & E1 & U1 & HBL & Hin). exists (Some s), t'. splits; auto. exists L. auto.
  Qed.
  Lemma multi_done fu f n m P q : fld f = Some n -> finds i r del n m P -> (forall d, sat sim (ihas d) (ihasp d) q <-> ihas d f P) -> scored fu (UMulti f m) (fun k => calm k q) (asks q).
  Proof.
    intros Ef Hm E. apply (good_scored fu (UMulti f m) q (fun d => ihas d f P)); [intros d; rewrite E; apply asks_has|]. intros t U. destruct (multi_sc fu f n m P t Ef Hm) as (so & E1 & G). exists so, t. auto.
  Qed.
  Lemma none_done fu f m P q : fld f = None -> query_terms m <> None -> (forall d, sat sim (ihas d) (ihasp d) q <-> ihas d f P) -> scored fu (UMulti f m) (fun k => calm k q) (asks q).
  Proof.
    intros Ef Hm E. apply (good_scored fu (UMulti f m) q (fun d => ihas d f P)); [intros d; rewrite E; apply asks_has|]. intros t U. exists None, t. rewrite (none_sc fu f m t Ef Hm). splits; auto. intros d. unfold ihas. rewrite Ef. auto.
  Qed.
  Lemma all_done : forall q, LIM q -> exists n, forall fu, (n <= fu)%nat -> done fu q.
  Proof.
    induction q as [q Hq|cs IH] using uq_ind2; intros HL.
    - destruct q as [f x|f p k|f p k|f x pl mn k|f g| |cs|f m|f g|f slop ps]; cbn [limits] in HL; try (destruct (Hq cs eq_refl)).
      + exists O. intros fu _. exists (UTerm f x), false. splits; [reflexivity|exact Logic.I|cbn; lia|]. apply term_done. reflexivity.
      + destruct HL as (L1 & L2 & L3). unfold ifew in L2, L3. destruct (fld f) as [n|] eqn:Ef.
        * destruct (prefix_finds2 i r del n p k one L1 HO (HF f n Ef) L2 L3) as (n0 & G). exists (S n0). intros fu Hfu. destruct (G fu Hfu) as (m & E & Hm). exists (UMulti f m), true. cbn [Look_Model.rewrite1]. rewrite Ef, E. splits; [reflexivity|exact Logic.I|cbn; lia|]. eapply multi_done; eauto. reflexivity.
        * exists O. intros fu _. exists (UMulti f (mkMtq (b_terms (mtq_new k 0)) 0 one)), true. cbn [Look_Model.rewrite1]. rewrite Ef. splits; [reflexivity|exact Logic.I|cbn; lia|]. eapply none_done; [exact Ef|discriminate|intros d; cbn [sat]; reflexivity].
      + destruct (snd (split_wild p)) as [|x0 xs] eqn:Es.
        * exists O. intros fu _. exists (UTerm f p), true. cbn [Look_Model.rewrite1]. unfold wcq_rewrite. pose proof (Expand_Proofs.split_wild_ok p) as Hsp. destruct (split_wild p) as [pre pt]. cbn [snd] in Es. subst pt. splits; [reflexivity|exact Logic.I|cbn; lia|]. apply term_done. intros d. cbn [sat]. destruct Hsp as (Ep & Hlit & _). rewrite app_nil_r in Ep.
          assert (EP : forall t, glob p t <-> p = t). { intros t. rewrite Ep, <- (app_nil_r pre) at 1. rewrite (Expand_Proofs.glob_pre pre [] Hlit). split; [intros (u & -> & G); inversion G; subst; rewrite app_nil_r; reflexivity|intros <-; exists []; rewrite app_nil_r; split; [congruence|constructor]]. }
          unfold ihas. destruct (fld f) as [n|]; [|tauto]. unfold has_term. split; intros (G1 & t & q0 & G2 & G3); (split; [exact G1|]); exists t, q0; (split; [apply EP; exact G2|exact G3]).
        * destruct HL as [HL|(L1 & L2 & L3 & L4)]; [discriminate|]. unfold ifew in L3, L4. destruct (fld f) as [n|] eqn:Ef.
          -- destruct (wildcard_finds2 i r del n p k one L1 HO (HF f n Ef) L3 L2) as (n0 & G); [congruence|exact L4|]. exists (S n0). intros fu Hfu. destruct (G fu Hfu) as (m & E & Hm). exists (UMulti f m), true. cbn [Look_Model.rewrite1]. rewrite Ef, E. splits; [reflexivity|exact Logic.I|cbn; lia|]. eapply multi_done; eauto. reflexivity.
          -- exists O. intros fu _. exists (UMulti f (mtq_new k 0)), true. cbn [Look_Model.rewrite1]. unfold wcq_rewrite. destruct (split_wild p) as [pre pt]. cbn [snd] in Es. subst pt. rewrite Ef. splits; [reflexivity|exact Logic.I|cbn; lia|]. eapply none_done; [exact Ef|discriminate|intros d; cbn [sat]; reflexivity].
      + destruct (fld f) as [n|] eqn:Ef.
        * destruct (Nat.leb_spec (length x) pl) as [Hp|Hp].
          -- exists O. intros fu _. exists (UTerm f x), true. cbn [Look_Model.rewrite1]. rewrite Ef. unfold fuzq_rewrite. rewrite (proj2 (Nat.leb_le _ _) Hp). splits; [reflexivity|exact Logic.I|cbn; lia|]. apply term_done. intros d. cbn [sat]. unfold ihas. rewrite Ef. unfold has_term, near. rewrite (proj2 (Nat.leb_le _ _) Hp). reflexivity.
          -- destruct HL as [HL|(L1 & L2 & L3)]; [lia|]. unfold ifew in L3. rewrite Ef in L3. destruct (fuzzy_finds calc sim i r del n x pl mn k L1 HO (HF f n Ef) Hp L2 L3) as (n0 & G). exists (S n0). intros fu Hfu. destruct (G fu Hfu) as (m & E & Hm). exists (UMulti f m), true. cbn [Look_Model.rewrite1]. rewrite Ef, E. splits; [reflexivity|exact Logic.I|cbn; lia|]. eapply multi_done; eauto. reflexivity.
        * exists O. intros fu _. exists (UBool []), true. cbn [Look_Model.rewrite1]. rewrite Ef. splits; [reflexivity|cbn; auto|cbn; lia|]. intros t U. destruct (bool_scored fu [] [] (Forall2_nil _) t U) as (so & t' & E1 & U1 & G). exists so, t'. splits; auto. intros k0 _. eapply good_ext; [|apply (G k0); reflexivity]. intros d. cbn [sat]. unfold ihas. rewrite Ef. unfold all_of. split; [intros (_ & _ & [(c & [] & _)|(c & [] & _)])|tauto].
      + destruct (bits_sc f g HL) as (n0 & G). exists n0. intros fu Hfu. destruct (G fu Hfu) as (so & E & Hg). exists (UBits f g), true. splits; [reflexivity|exact Logic.I|cbn; lia|]. apply (good_scored fu _ _ (fun d => ihas d f (in_range g))); [intros d; apply asks_has|]. intros t U. exists so, t. rewrite E. auto.
      + exists O. intros fu _. exists UAll, false. splits; [reflexivity|exact Logic.I|cbn; lia|]. apply (good_scored fu _ _ (fun d => here d)); [intros d; cbn [sat]; tauto|]. intros t U. exists (Some (All (-1) mx del)), t. splits; auto. destruct (@all_beh mx mx del (Z.le_refl mx)) as (l & HBl & Hin). exists l. split; [exact HBl|]. intros d. rewrite Hin. tauto.
      + destruct (query_terms m) as [lq|] eqn:El; [|congruence]. exists O. intros fu _. exists (UMulti f m), false. splits; [reflexivity|exact Logic.I|cbn; lia|]. destruct (fld f) as [n|] eqn:Ef.
        * apply (multi_done fu f n m (fun t => In t (words m))); [exact Ef| |intros d; cbn [sat]; reflexivity]. apply (list_finds i r del n m lq _ HO (HF f n Ef) El). intros d. unfold words. rewrite El. reflexivity.
        * eapply none_done; [exact Ef|congruence|intros d; cbn [sat]; reflexivity].
      + destruct (bits_sc f g HL) as (n0 & G). exists n0. intros fu Hfu. destruct (G fu Hfu) as (so & E & Hg). exists (UBits f g), false. splits; [reflexivity|exact Logic.I|cbn; lia|]. apply (good_scored fu _ _ (fun d => ihas d f (in_range g))); [intros d; apply asks_has|]. intros t U. exists so, t. rewrite E. auto.
      + assert (HW : forall fu, ps = [] \/ iord f /\ (slop = 0 \/ NoDup (flat_map snd ps) /\ (2 <= length ps)%nat /\ exists p, In p ps /\ istarts (fst p) f) -> scored fu (UPhrase f slop ps) (fun k => calm k (UPhrase f slop ps)) (asks (UPhrase f slop ps))).
        { intros fu Ho. apply (good_scored fu _ _ (fun d => ihasp d f slop ps)); [intros d; apply asks_phrase|]. intros t U. apply phrase_sc; assumption. }
        exists O. intros fu _. destruct ps as [|(o, ts) [|p2 ps]].
        * exists (UPhrase f slop []), false. splits; [reflexivity|exact Logic.I|cbn; lia|]. apply HW. left. reflexivity.
        * assert (EQ : forall d, sat sim (ihas d) (ihasp d) (UPhrase f slop [(o, ts)]) <-> ihas d f (fun t => In t ts)) by (intros d; apply one_phrase).
          destruct (Nat.eq_dec (length ts) 1) as [E1|E1].
          -- destruct ts as [|x [|x2 ts]]; try discriminate. exists (UTerm f x), true. splits; [reflexivity|exact Logic.I|cbn; lia|]. apply term_done. intros d. rewrite EQ. unfold ihas. destruct (fld f); [|tauto]. unfold has_term. split; intros (G1 & t & q0 & G2 & G3); (split; [exact G1|]); exists t, q0; (split; [|exact G3]); [destruct G2 as [G2|[]]; exact G2|left; exact G2].
          -- destruct HL as [HL|(L1 & L2)]; [exact (False_ind _ (E1 HL))|]. assert (EW : forall m, add_terms (mtq_new MULTI_MAX 0) ts = Some m -> rewrite1 fu (UPhrase f slop [(o, ts)]) = Some (UMulti f m, true)) by (intros m Em; cbn [Look_Model.rewrite1]; destruct ts as [|x [|x2 ts]]; [|destruct E1; reflexivity|]; rewrite Em; reflexivity).
             destruct (fld f) as [n|] eqn:Ef.
             ++ destruct (terms_finds i r del n ts HO (HF f n Ef) L1 L2) as (m & Em & _ & Hm). exists (UMulti f m), true. rewrite (EW m Em). splits; [reflexivity|exact Logic.I|cbn; lia|]. eapply multi_done; eauto.
             ++ destruct (terms_some ts L1 L2) as (m & Em & Hm). exists (UMulti f m), true. rewrite (EW m Em). splits; [reflexivity|exact Logic.I|cbn; lia|]. eapply none_done; eauto.
        * exists (UPhrase f slop ((o, ts) :: p2 :: ps)), false. splits; [destruct ts as [|? [|? ?]]; reflexivity|exact Logic.I|cbn; lia|]. apply HW. right. destruct HL as (L1 & L2). split; [exact L1|]. destruct L2 as [L2|(L2 & L3)]; [left; exact L2|right]. splits; auto. cbn [length]. lia.
    - rewrite Forall_forall in IH. destruct (limits_bool cs HL) as (HLc & HLb).
      destruct (uniform (fun c fu => done fu (snd c)) cs) as (n & Hn); [intros c Hc; apply IH; auto|]. exists n. intros fu Hfu. specialize (Hn fu Hfu). unfold done. rewrite rewrite_bool.
      assert (Hmany : single cs = false -> exists q' b, rewrite_all fu cs = Some (q', b) /\ stable q' /\ (depth q' <= S (depth (UBool cs)))%nat /\ scored fu q' (fun k => calm k (UBool cs)) (asks (UBool cs))).
      { intros Hs1. unfold rewrite_all. destruct (oall_ok (fun c : occur * uq => do x <- rewrite1 fu (snd c); Some (fst c, x)) cs) as (xs & Ex & HX).
        { intros c Hc. destruct (Hn c Hc) as (q' & b & E & _). rewrite E. discriminate. }
        rewrite Ex. cbn [obind]. cbv zeta. set (cs' := map (fun y : occur * (uq * bool) => (fst y, fst (snd y))) xs). set (ch := existsb (fun y : occur * (uq * bool) => snd (snd y)) xs).
        assert (H2 : Forall2 (fun c c' => (stable (snd c') /\ (depth (snd c') <= S (depth (snd c)))%nat) /\ fst c' = fst c /\ scored fu (snd c') (fun k => calm k (snd c)) (asks (snd c))) cs cs').
        { unfold cs'. clear -HX Hn. induction HX as [|c y cs xs E HX IH]; [constructor|]. cbn [map]. constructor; [|apply IH; intros; apply Hn; right; auto]. destruct (Hn c (or_introl eq_refl)) as (q' & b & E2 & G1 & G2 & G3). cbn beta in E. rewrite E2 in E. cbn [obind] in E. apply some_inj in E. subst y. cbn [fst snd]. auto. }
        assert (H3 : Forall2 (fun c c' => fst c' = fst c /\ scored fu (snd c') (fun k => calm k (snd c)) (asks (snd c))) cs cs') by (clear -H2; induction H2; constructor; tauto).
        assert (Hst : forall c', In c' cs' -> stable (snd c')) by (clear -H2; intros c' Hc'; induction H2 as [|c c2 cs cs' ((S1 & _) & _) HH IH]; [destruct Hc'|]; destruct Hc' as [<-|Hc']; [exact S1|auto]).
        assert (Hdp : forall c', In c' cs' -> (depth (snd c') <= depth (UBool cs))%nat).
        { assert (HD0 : forall c, In c cs -> (S (depth (snd c)) <= depth (UBool cs))%nat). { pose proof (proj1 (depth_bool cs (Nat.pred (depth (UBool cs)))) ltac:(cbn [depth]; lia)) as G. intros c Hc. specialize (G c Hc). change (depth (UBool cs)) with (S (Nat.pred (depth (UBool cs)))). lia. }
          clear -H2 HD0. revert HD0. generalize (depth (UBool cs)). intros D HD0 c' Hc'. induction H2 as [|c c2 cs cs' ((_ & S2) & _) HH IH]; [destruct Hc'|]. destruct Hc' as [<-|Hc']; [specialize (HD0 c (or_introl eq_refl)); lia|apply IH; [intros; apply HD0; right; auto|exact Hc']]. }
        assert (Ef : map fst cs' = map fst cs) by (clear -H3; induction H3 as [|c c' cs cs' (E & _) HH IH]; [reflexivity|cbn [map]; rewrite E, IH; reflexivity]).
        assert (Eb : barred cs' = barred cs). { assert (El : length cs' = length cs) by (rewrite <- (map_length fst cs'), Ef; apply map_length). unfold barred. rewrite El. f_equal. clear -Ef. revert cs Ef. induction cs' as [|c' cs' IH]; intros [|c cs] E; try discriminate; [reflexivity|]. cbn [map forallb] in *. injection E as E1 E2. rewrite E1, (IH cs E2). reflexivity. }
        destruct (barred cs) eqn:Hb.
        - specialize (HLb eq_refl). rewrite (proj2 (Nat.ltb_lt _ _) HLb). exists (UBool (cs' ++ [(Must, UAll)])), ch. splits; [reflexivity| | |].
          + apply stable_bool. splits.
            * intros c Hc. apply in_app_iff in Hc. destruct Hc as [Hc|[<-|[]]]; [auto|exact Logic.I].
            * unfold barred in Hb. destruct cs; [discriminate|]. destruct cs' as [|a [|b l]]; [discriminate| |]; cbn; destruct a as ([| |], ?); reflexivity.
            * unfold barred. rewrite forallb_app. cbn [forallb is_not fst]. rewrite andb_false_r, andb_false_r. reflexivity.
          + apply depth_bool. intros c Hc. apply in_app_iff in Hc. destruct Hc as [Hc|[<-|[]]]; [auto|cbn; lia].
          + assert (H4 : Forall2 (fun c c' => fst c' = fst c /\ scored fu (snd c') (fun k => calm k (snd c)) (asks (snd c))) (cs ++ [(Must, UAll)]) (cs' ++ [(Must, UAll)])).
            { apply Forall2_app; [exact H3|]. constructor; [|constructor]. split; [reflexivity|]. cbn [snd]. apply (good_scored fu _ UAll (fun d => here d)); [intros d; cbn [sat]; tauto|]. intros t U. exists (Some (All (-1) mx del)), t. splits; auto. destruct (@all_beh mx mx del (Z.le_refl mx)) as (l & HBl & Hin). exists l. split; [exact HBl|]. intros d. rewrite Hin. tauto. }
            intros t U. destruct (bool_scored fu _ _ H4 t U) as (so & t' & E1 & U1 & G). exists so, t'. splits; auto. intros k Hk. eapply good_ext; [|apply (G k), calm_all; [exact Hb|exact Hk]]. intros d. rewrite <- comb_barred by exact Hb. reflexivity.
        - exists (UBool cs'), ch. splits; [reflexivity| | |].
          + apply stable_bool. splits; [exact Hst| |exact Eb]. destruct cs as [|c [|c2 cs]].
            * destruct cs'; [reflexivity|discriminate].
            * destruct cs' as [|c' [|c2' cs']]; try discriminate. injection Ef as Ef. destruct c as (o, q), c' as (o', q'). cbn [fst] in Ef. subst o'. destruct o; [discriminate|discriminate|reflexivity].
            * destruct cs' as [|c' [|c2' cs']]; try discriminate. destruct c' as ([| |], q'); reflexivity.
          + apply depth_bool. exact Hdp.
          + intros t U. destruct (bool_scored fu _ _ H3 t U) as (so & t' & E1 & U1 & G). exists so, t'. splits; auto. intros k Hk. eapply good_ext; [|apply (G k); exact Hk]. intros d. rewrite <- comb_all by exact Hb. reflexivity. }
      assert (Hone : forall o c, cs = [(o, c)] -> o <> MustNot -> exists q' b, (do x <- rewrite1 fu c; Some (fst x, true)) = Some (q', b) /\ stable q' /\ (depth q' <= S (depth (UBool cs)))%nat /\ scored fu q' (fun k => calm k (UBool cs)) (asks (UBool cs))).
      { intros o c -> Ho. destruct (Hn (o, c) (or_introl eq_refl)) as (q' & b & E & S1 & S2 & S3). cbn [snd] in *. rewrite E. exists q', true. splits; [reflexivity|exact S1|cbn [depth snd] in *; lia|]. intros t U. destruct (S3 t U) as (so & t' & E1 & U1 & G). exists so, t'. splits; auto. intros k Hk.
        assert (Hc : calm k c = true) by (cbn [calm forallb fst snd] in Hk; destruct o; cbn in Hk; rewrite ?andb_true_r, ?orb_false_r in Hk; try exact Hk; congruence). eapply good_ext; [|exact (G k Hc)]. intros d. cbn [sat map fst snd]. rewrite comb_one by exact Ho. reflexivity. }
      destruct cs as [|([| |], c) [|c2 cs]]; try (apply Hmany; reflexivity); apply Hone with (1 := eq_refl); discriminate.
  Qed.

  (* ---------- searches *)
  Theorem look_ok q : LIM q -> calm false q = true -> exists n, forall fu, (n <= fu)%nat -> forall t, tir_used r t ->
    exists L t', (exists n2, forall fv, (n2 <= fv)%nat -> look calc sim srt r del mx fld fu fv q t = Some (L, t')) /\ tir_used r t' /\ StronglySorted Z.lt L /\ forall d, In d L <-> asks q d.
  Proof.
    intros HL HC. destruct (all_done q HL) as (n & Hn). exists n. intros fu Hfu t U. destruct (Hn fu Hfu) as (q' & b & E & S1 & S2 & S3). destruct (S3 t U) as (so & t' & E1 & U1 & G). specialize (G false HC).
    unfold look. destruct so as [s|]; cbn [good] in G.
    - destruct G as (L & HBL & Hin). destruct (docs_ok mx _ L s None false (le_n _) HBL) as (n2 & HD). destruct (beh_facts _ _ _ _ HBL) as (SL & _). destruct (num_docs del mx =? 0)%nat eqn:E0.
      + exists [], t'. splits; [|exact U1|constructor|].
        * exists (depth q' + 4)%nat. intros fv Hfv. rewrite (weight_of fu q q' b fv E S1) by lia. cbn [obind]. rewrite E1. cbn [obind fst snd]. reflexivity.
        * intros d. split; [intros []|]. intros ((Hd & Hdel) & _). exfalso. apply Nat.eqb_eq in E0. unfold num_docs in E0. apply length_zero_iff_nil in E0.
          assert (C : In (Z.to_nat d) (filter (fun k => negb (del (Z.of_nat k))) (seq 0 (Z.to_nat mx)))) by (apply filter_In; split; [apply in_seq; lia|rewrite Z2Nat.id, Hdel by lia; reflexivity]). rewrite E0 in C. destruct C.
      + exists L, t'. splits; [|exact U1|exact SL|exact Hin]. exists (Nat.max n2 (depth q' + 4))%nat. intros fv Hfv. rewrite (weight_of fu q q' b fv E S1) by lia. cbn [obind]. rewrite E1. cbn [obind fst snd]. rewrite HD by lia. reflexivity.
    - exists [], t'. splits; [|exact U1|constructor|].
      + exists (depth q' + 4)%nat. intros fv Hfv. rewrite (weight_of fu q q' b fv E S1) by lia. cbn [obind]. rewrite E1. reflexivity.
      + intros d. split; [intros []|]. intros Hd. exact (G d Hd).
  Qed.
End A.
