(* Pages of hits after a history of a writer. *)
From Coq Require Import Sorting.Permutation.
From Verif Require Import Util Codec_Model Strcmp Seg_Model Dict_Model Dict_Spec Token_Model Post_Model Post_Spec PostRun_Proofs Multi_Model Multi_Proofs Mte_Model Mte_Spec Mtde_Model Mtde_Spec Expand_Model Expand_Spec Fuzzy_Model Fuzzy_Spec Range_Model Range_Spec Range_Proofs Merge_Model Merge_Spec Fields_Model Fields_Spec Invert_Model Invert_Spec Iw_Model Iw_Spec InvertIndex_Proofs InvertTop_Proofs IwSeg_Proofs IwMerge_Proofs IwRun_Proofs Tsc_Model Tsc_Spec Tpe_Model Tpe_Spec Find_Model Find_Spec Find_Proofs FindTop_Proofs Query_Model Leaf_Model Bool_Model Search_Model Search_Spec Search_Proofs Sort_Model Sort_Proofs Look_Model Look_Spec Look_Proofs LookKept_Proofs LookTop_Proofs Page_Model Page_Spec.
Open Scope Z_scope.

Lemma stype_dec (a b : stype) : {a = b} + {a <> b}.
Proof. decide equality. Qed.
Lemma highest_ok ts : match highest ts with None => ts = [] | Some t => In t ts /\ forall u, In u ts -> sle u t end.
Proof.
  induction ts as [|t ts IH]; [reflexivity|]. cbn [highest fold_right]. fold (highest ts). destruct (highest ts) as [u|]; cbn [higher].
  - destruct IH as (H1 & H2). destruct (sltb u t) eqn:E.
    + apply sltb_spec in E. split; [left; reflexivity|]. intros w [<-|Hw]; [apply sle_refl|]. apply slt_le. eapply sle_lt_trans; eauto.
    + apply sltb_ge in E. split; [right; exact H1|]. intros w [<-|Hw]; auto.
  - subst ts. split; [left; reflexivity|]. intros w [<-|[]]. apply sle_refl.
Qed.
Lemma ranking_ext (P Q : hit -> hit -> Prop) l R : (forall a b, In a l -> In b l -> (P a b <-> Q a b)) -> ranking P l R <-> ranking Q l R.
Proof.
  intros H. unfold ranking. assert (G : forall P Q : hit -> hit -> Prop, (forall a b, In a l -> In b l -> (P a b -> Q a b)) -> Permutation l R -> StronglySorted P R -> StronglySorted Q R).
  { clear. intros P Q H HP HS. assert (HI : forall a, In a R -> In a l) by (intros a; apply Permutation_in; symmetry; exact HP). clear HP. induction HS as [|a R HS IH HF]; [constructor|]. constructor; [apply IH; intros b Hb; apply HI; right; exact Hb|]. rewrite Forall_forall in *. intros b Hb. apply H; auto; apply HI; [left|right]; auto. }
  split; intros (H1 & H2); (split; [exact H1|]); [apply (G P Q)|apply (G Q P)]; auto; intros a b Ha Hb; apply H; auto.
Qed.
Lemma ranking_unique coll sort cs l R R' : coll_ok coll -> NoDup (map h_doc l) -> ranking (order coll sort cs) l R -> ranking (order coll sort cs) l R' -> R' = R.
Proof.
  intros Hc HN HR HR'. apply (ranking_sorted coll Hc sort cs) in HR, HR'. destruct HR as (H1 & H2), HR' as (H3 & H4). apply (rank_unique hit _ (lts_pre coll Hc sort cs)); auto.
  - apply (asym_docs coll Hc). eapply Permutation_NoDup; [apply Permutation_map; exact H3|exact HN].
  - rewrite <- H3. exact H1.
Qed.
Lemma visit_look calc sim srt r del mx fld fu fv q t L t' : look calc sim srt r del mx fld fu fv q t = Some (L, t') ->
  exists o, visit calc sim srt r del mx fld fu fv q t = Some (o, t') /\ (o = None /\ L = [] \/ o = Some L /\ live del mx <> 0).
Proof.
  unfold look, visit. destruct (q_weight _ _ _ _ _ _ _) as [w|]; [|discriminate]. cbn [obind]. destruct (scorer _ _ _ _ _ _ _ _) as [[so t2]|]; [|discriminate]. cbn [obind fst snd]. destruct so as [s|].
  - unfold live. destruct (Nat.eqb_spec (num_docs del mx) 0) as [E0|E0].
    + intros E. apply some_inj, pair_equal_spec in E. destruct E as (<- & <-). exists None. auto.
    + destruct (docs_of fv s) as [l|]; [|discriminate]. cbn [obind]. intros E. apply some_inj, pair_equal_spec in E. destruct E as (<- & <-). exists (Some l). split; [reflexivity|]. right. split; [reflexivity|lia].
  - intros E. apply some_inj, pair_equal_spec in E. destruct E as (<- & <-). exists None. auto.
Qed.
Lemma by_keys_ext coll : forall (cs cs' : list comp) a b, Forall2 (fun c c' => c_rev c = c_rev c' /\ (forall u v, (u = a \/ u = b) -> (v = a \/ v = b) -> (key_lt coll c u v <-> key_lt coll c' u v) /\ (key_eq coll c u v <-> key_eq coll c' u v))) cs cs' -> (by_keys coll cs a b <-> by_keys coll cs' a b).
Proof.
  intros cs cs' a b H. induction H as [|c c' cs cs' (H1 & H2) HF IH]; cbn [by_keys]; [tauto|]. rewrite <- H1. destruct (H2 a b) as (A1 & A2); auto. destruct (H2 b a) as (B1 & B2); auto. destruct (c_rev c); rewrite ?A1, ?A2, ?B1, IH; tauto.
Qed.
Lemma filter_hits (g : Z -> hit) (Hg : forall d, h_doc (g d) = d) (bits : option (Z -> bool)) mx lv cs l :
  hits_of (mkSub (Some (map g l)) lv bits None cs mx) = map g (filter (fun d => match bits with Some b => b d | None => true end) l).
Proof.
  unfold hits_of. cbn [u_hits]. generalize (Some (map g l)) as w. intros w. induction l as [|d l IH]; [reflexivity|]. cbn [map flat_map filter]. rewrite IH. unfold keep. cbn [u_bits u_post]. destruct bits as [b|]; [|reflexivity]. rewrite Hg. destruct (b d); reflexivity.
Qed.
Lemma sorted_filter (f : Z -> bool) l : StronglySorted Z.lt l -> StronglySorted Z.lt (filter f l).
Proof. induction 1 as [|d l HS IH HF]; cbn [filter]; [constructor|]. destruct (f d); [|exact IH]. constructor; [exact IH|]. rewrite Forall_forall in *. intros e He. apply filter_In in He. apply HF. tauto. Qed.

Section TS.
  Variable ana : list Z -> list Z -> list token.
  Variable norm : field_info -> Z -> dfield -> Z -> Z.
  Variable zip : list Z -> list Z.
  Variable unzip : list Z -> option (list Z).
  Variable fuel : nat.
  Variable cfg : config.
  Variable buf0 : list Z.
  Variable fis : field_infos.
  Variable os : list wop.
  Variable ts : list (list (Z * list (list Z * list post)) * (wseg * list document)).
  Notation max := (c_field_length cfg).
  Notation F := (fis_of fis (added os)).
  Notation segs := (map (fun t : list (Z * list (list Z * list post)) * (wseg * list document) => fst (snd t)) ts).
  Notation slots := (slots_of ts).
  Notation i := (pidx_of (c_interval cfg) (c_skip cfg) ts).
  Notation r := (reader_of segs).
  Notation del := (rd_is_deleted segs).
  Notation size := (length slots).
  Hypothesis H1 : config_ok cfg buf0 (length (added os)).
  Hypothesis H2 : (3 <= c_skip cfg)%nat.
  Hypothesis R3 : Forall (rept ana norm zip max (c_interval cfg) (c_skip cfg) F) ts.
  Hypothesis R4 : Forall (fun t => reads ana norm unzip fuel max F (c_skip cfg) (fst (snd t)) (snd (snd t))) ts.
  Hypothesis R6 : lesser (flat_map (fun t => snd (snd t)) ts) (added os).
  Variable y : idx.
  Hypothesis HD : dicts i r y.

  Lemma HA : answers ana unzip fuel max F segs slots.
  Proof. pose proof H1 as (C1 & C2 & C3 & C4 & C5 & C6 & C7). eapply answers_ok with (I := c_interval cfg) (kn := c_skip cfg); eauto. Qed.
  Lemma mx_size : rd_max_doc segs = Z.of_nat size.
  Proof. apply HA. Qed.
  Lemma size_small : Z.of_nat size <= Search_Model.INT_MAX.
  Proof.
    pose proof H1 as (C1 & C2 & C3 & C4 & C5 & C6 & C7). assert (E : length slots = length (flat_map (fun t => snd (snd t)) ts)) by (unfold slots_of; apply slots_len). rewrite E. pose proof (lesser_len _ _ R6). unfold Search_Model.INT_MAX. nia.
  Qed.
  Lemma post_docs n t d : in_post i (Z.of_nat n) del t d = true <-> exists k x, d = Z.of_nat k /\ nth_error slots k = Some (Some x) /\ exists o, In o (occs_in ana max F n x) /\ o_text o = t.
  Proof.
    pose proof H1 as (C1 & C2 & C3 & C4 & C5 & C6 & C7). rewrite in_post_spec. pose proof (has_term_docs ana norm zip unzip max (c_interval cfg) (c_skip cfg) F C1 H2 ts n (eq t) d R3) as G. unfold Range_Spec.has_term, doc_with in G. split.
    - intros (A & p & B & C). destruct (proj1 G) as (k & x & K1 & K2 & o & K3 & K4); [split; [exact A|]; exists t, p; auto|]. exists k, x. splits; auto. exists o. auto.
    - intros (k & x & K1 & K2 & o & K3 & K4). destruct (proj2 G) as (A & t' & p & <- & B & C); [exists k, x; splits; auto; exists o; auto|]. split; [exact A|]. exists p. auto.
  Qed.
  Lemma in_range_docs n t (p : post) : In p (plook i (Z.of_nat n) t) -> del (fst p) = false -> 0 <= fst p < Z.of_nat size.
  Proof.
    intros Hp Hd. destruct (proj1 (post_docs n t (fst p))) as (k & x & K1 & K2 & _); [apply in_post_spec; split; [exact Hd|]; eauto|]. assert (k < size)%nat by (apply nth_error_Some; congruence). lia.
  Qed.
  Lemma slot_greatest n k x : nth_error slots k = Some (Some x) -> greatest i (Z.of_nat n) del (Z.of_nat k) (highest (map o_text (occs_in ana max F n x))).
  Proof.
    intros Hx. pose proof (highest_ok (map o_text (occs_in ana max F n x))) as HH. assert (G : forall t, in_post i (Z.of_nat n) del t (Z.of_nat k) = true <-> In t (map o_text (occs_in ana max F n x))).
    { intros t. rewrite post_docs, in_map_iff. split; [intros (k' & x' & K1 & K2 & o & K3 & K4)|intros (o & K3 & K4); exists k, x; splits; eauto]. replace k' with k in K2 by lia. rewrite Hx in K2. apply some_inj, some_inj in K2. subst x'. eauto. }
    destruct (highest _) as [t|].
    - destruct HH as (A & B). apply G_some; [apply G; exact A|]. intros u Hu. apply B, G, Hu.
    - apply G_none. intros t. destruct (in_post _ _ _ t _) eqn:E; [|reflexivity]. apply G in E. rewrite HH in E. destruct E.
  Qed.

  Variables (scan_ld scan_g len_d len_f : list Z -> option Z) (coll : list Z -> list Z -> Z).
  Hypothesis Hcoll : coll_ok coll.
  Notation fof := (field_of ana max F).
  Notation fixed := (holds i y).
  (* the keys of the documents *)
  Definition key_num (ty : stype) (f : list Z) (x : document) : Z :=
    match ty with
    | TByte => match fis_get F f, fof f x with Some (n, _), Some t => find_num 1 (idx_terms y (Z.of_nat n)) t | _, _ => 0 end
    | TInteger => number_of scan_ld (fof f x)
    | TFloat => number_of scan_g (fof f x)
    | _ => 0
    end.
  Definition ideal (p : sfield * stype) : comp :=
    mkComp (snd p) (sf_rev (fst p)) (fun d => match nth_error slots (Z.to_nat d) with Some (Some x) => key_num (snd p) (sf_field (fst p)) x | _ => 0 end)
      (fun d => match nth_error slots (Z.to_nat d) with Some (Some x) => fof (sf_field (fst p)) x | _ => None end).
  Definition known (p : sfield * stype) : Prop := match snd p with TScore | TDoc => True | _ => fis_get F (sf_field (fst p)) <> None end.
  Lemma ideal_keys p a b xa xb : known p -> stored slots a xa -> stored slots b xb ->
    (key_lt coll (ideal p) a b <-> before ana max F scan_ld scan_g coll (snd p) (sf_field (fst p)) (a, xa) (b, xb)) /\ (key_eq coll (ideal p) a b <-> level ana max F scan_ld scan_g coll (snd p) (sf_field (fst p)) (a, xa) (b, xb)).
  Proof.
    intros Hk (A1 & A2) (B1 & B2). destruct p as (s, ty). unfold key_lt, key_eq, before, level, known in *. cbn [ideal c_type fst snd c_long c_str] in *. rewrite A2, B2. destruct ty; try tauto. cbn [key_num].
    destruct (fis_get F (sf_field s)) as [(n, fi)|] eqn:EF; [|destruct Hk; reflexivity].
    assert (HM : forall h x t, stored slots h x -> fof (sf_field s) x = Some t -> In t (idx_terms y (Z.of_nat n))).
    { intros h x t (S1 & S2) Et. unfold field_of in Et. rewrite EF in Et. pose proof (slot_greatest n _ x S2) as G. rewrite Et in G. inversion G as [|t' G1 G2]; subst. exact (in_M i r y (Z.of_nat n) HD (field_ok _ _ _ _) del t _ G1). }
    destruct (fof (sf_field s) xa) as [ta|] eqn:Ea, (fof (sf_field s) xb) as [tb|] eqn:Eb.
    - pose proof (HM a xa ta (conj A1 A2) Ea) as Ma. pose proof (HM b xb tb (conj B1 B2) Eb) as Mb. destruct (num_lt i r y (Z.of_nat n) HD (field_ok _ _ _ _) del scan_ld scan_g size (in_range_docs n) ta tb Ma Mb) as (N1 & N2 & N3). split; [exact N1|]. rewrite N2. split; [congruence|intros E; injection E; auto].
    - pose proof (HM a xa ta (conj A1 A2) Ea) as Ma. destruct (num_lt i r y (Z.of_nat n) HD (field_ok _ _ _ _) del scan_ld scan_g size (in_range_docs n) ta ta Ma Ma) as (_ & _ & N3). split; split; try tauto; try discriminate; lia.
    - pose proof (HM b xb tb (conj B1 B2) Eb) as Mb. destruct (num_lt i r y (Z.of_nat n) HD (field_ok _ _ _ _) del scan_ld scan_g size (in_range_docs n) tb tb Mb Mb) as (_ & _ & N3). split; split; try tauto; try discriminate; lia.
    - split; split; try tauto; try discriminate; lia.
  Qed.
  Lemma ideal_order a b xa xb : forall l, Forall known l -> stored slots a xa -> stored slots b xb -> (by_keys coll (map ideal l) a b <-> by_fields ana max F scan_ld scan_g coll l (a, xa) (b, xb)).
  Proof.
    induction l as [|p l IH]; intros Hl Sa Sb; [reflexivity|]. inversion Hl as [|? ? K1 K2]; subst. cbn [map by_keys by_fields]. rewrite (IH K2 Sa Sb). destruct (ideal_keys p a b xa xb K1 Sa Sb) as (A & B). destruct (ideal_keys p b a xb xa K1 Sb Sa) as (A' & _). destruct p as (s, ty). cbn [fst snd] in *. change (c_rev (ideal (s, ty))) with (sf_rev s). destruct (sf_rev s); rewrite ?A, ?A', ?B; reflexivity.
  Qed.

  (* a comparator that reads the keys of the documents *)
  Definition reads_key (p : sfield * stype) (c : comp * (Z -> bool)) : Prop :=
    c_type (fst c) = snd p /\ c_rev (fst c) = sf_rev (fst p) /\
    forall k x, nth_error slots k = Some (Some x) -> snd c (Z.of_nat k) = true /\
      match snd p with
      | TScore | TDoc => True
      | TString => c_str (fst c) (Z.of_nat k) = fof (sf_field (fst p)) x
      | _ => c_long (fst c) (Z.of_nat k) = key_num (snd p) (sf_field (fst p)) x
      end.
  Definition cache_ok (c : fcache) : Prop := forall f k x, cached c f k = Some x -> exists n fi, fis_get F f = Some (n, fi) /\ holds i y (Z.of_nat n) del scan_ld scan_g size k x.
  Lemma klass_eqb_ok a b : klass_eqb a b = true <-> a = b.
  Proof. destruct a, b; cbn; split; congruence. Qed.
  Lemma cache_nil : cache_ok [].
  Proof. intros f k x E. discriminate E. Qed.
  Definition fits (fv : nat) (f : list Z) : Prop := match fis_get F f with Some (n, _) => (enough i y (Z.of_nat n) <= fv)%nat | None => True end.
  Lemma get_ok fv c f n fi k : fis_get F f = Some (n, fi) -> fits fv f -> cache_ok c ->
    exists x c', field_index_get scan_ld scan_g r del (rd_max_doc segs) (field_num F) fv c f k = Ok (x, c') /\ cache_ok c' /\ holds i y (Z.of_nat n) del scan_ld scan_g size k x.
  Proof.
    intros EF Hfit HC. unfold field_index_get, field_num. rewrite EF. cbn [option_map fst]. destruct (cached c f k) as [x|] eqn:EC.
    - destruct (HC _ _ _ EC) as (n' & fi' & E' & G). rewrite EF in E'. injection E' as <- <-. exists x, c. auto.
    - rewrite mx_size, Nat2Z.id. unfold fits in Hfit. rewrite EF in Hfit. destruct (build_ok i r y (Z.of_nat n) HD (field_ok _ _ _ _) del scan_ld scan_g size (in_range_docs n) k fv Hfit) as (x & E & G). rewrite E. eexists x, _. split; [reflexivity|]. split; [|exact G].
      intros f' k' x' E'. cbn [cached fst snd] in E'. destruct (seqb f f' && klass_eqb k k') eqn:E2; [|eauto]. apply andb_true_iff in E2. destruct E2 as (E2 & E3). apply seqb_spec in E2. apply klass_eqb_ok in E3. subst f' k'. apply some_inj in E'. subst x'. eauto.
  Qed.
  Lemma auto_kind t ty : kind len_d len_f t ty -> auto_type len_d len_f t = ty.
  Proof.
    unfold kind, whole, auto_type. intros (Hn & H). assert (length t <> 0)%nat by (destruct t; [destruct Hn; reflexivity|discriminate]).
    destruct H as [(E & ->)|[(E1 & E & ->)|(E1 & E2 & ->)]].
    - rewrite E, Z.eqb_refl. reflexivity.
    - destruct (len_d t) as [l|]; [destruct (Z.eqb_spec l (Z.of_nat (length t))); [subst; destruct E1; reflexivity|]|destruct (Z.eqb_spec 0 (Z.of_nat (length t))); [lia|]]; rewrite E, Z.eqb_refl; reflexivity.
    - destruct (len_d t) as [l|]; [destruct (Z.eqb_spec l (Z.of_nat (length t))); [subst; destruct E1; reflexivity|]|destruct (Z.eqb_spec 0 (Z.of_nat (length t))); [lia|]];
      (destruct (len_f t) as [m|]; [destruct (Z.eqb_spec m (Z.of_nat (length t))); [subst; destruct E2; reflexivity|reflexivity]|]).
      + destruct (Z.eqb_spec l (Z.of_nat (length t))); [contradiction|reflexivity].
      + destruct (Z.eqb_spec 0 (Z.of_nat (length t))); [lia|reflexivity].
  Qed.
  Lemma evaluate_ok s ty : typed ana max F scan_ld scan_g len_d len_f slots (added os) s ty -> evaluate len_d len_f r (live del (rd_max_doc segs)) (field_num F) s = Ok (mkSf (sf_field s) (Is ty) (sf_rev s)).
  Proof.
    intros (_ & _ & [E|(E & EF & (x & Hx & Hxf) & Hall)]); unfold evaluate; rewrite E; [destruct s; cbn in *; subst; reflexivity|].
    unfold field_num. destruct (fis_get F (sf_field s)) as [(n, fi)|] eqn:EN; [|destruct EF; reflexivity]. cbn [option_map fst]. destruct (first_stands i r y (Z.of_nat n) HD (field_ok _ _ _ _)) as (te & -> & HAr). cbn [obind].
    assert (HV : forall t, In t (idx_terms y (Z.of_nat n)) -> auto_type len_d len_f t = ty).
    { intros t Ht. destruct (stype_dec (auto_type len_d len_f t) ty) as [G|G]; [exact G|exfalso].
      assert (HF0 : few ana max F 0 n (added os) (fun t => auto_type len_d len_f t <> ty)). { intros l HN Hl. destruct l as [|u l]; [cbn; lia|]. destruct (Hl u (or_introl eq_refl)) as (G1 & d & Hd & o & Ho & Eo). destruct G1. subst u. apply auto_kind. eapply Hall; eauto. }
      pose proof (few_at_most ana norm zip max (c_interval cfg) (c_skip cfg) F ts n (added os) _ O R3 R6 HF0) as G0. specialize (G0 [t]). assert (length [t] <= 0)%nat; [|cbn in *; lia]. apply G0; [repeat constructor; intros []|]. intros u [<-|[]]. split; [|exact G]. exact (voc_ok i r y (Z.of_nat n) t HD (field_ok _ _ _ _) Ht). }
    destruct (idx_terms y (Z.of_nat n)) as [|u R] eqn:EM; cbn [arrives] in HAr.
    - exfalso. apply Hxf. unfold field_of. rewrite EN. apply In_nth_error in Hx. destruct Hx as (k & Hk). pose proof (slot_greatest n k x Hk) as G. destruct (highest _) as [t|]; [|reflexivity]. inversion G as [|t' G1 G2]; subst. pose proof (in_M i r y (Z.of_nat n) HD (field_ok _ _ _ _) del t _ G1) as G3. rewrite EM in G3. destruct G3.
    - destruct HAr as (te' & -> & _). rewrite (HV u (or_introl eq_refl)). reflexivity.
  Qed.
  Notation typ := (typed ana max F scan_ld scan_g len_d len_f slots (added os)).
  Lemma typed_known s ty : typ s ty -> known (s, ty).
  Proof. intros (H & _). exact H. Qed.
  Lemma comparator_ok fv c s ty : typ s ty -> fits fv (sf_field s) -> cache_ok c ->
    exists a s' c', get_comparator scan_ld scan_g len_d len_f r del (rd_max_doc segs) (live del (rd_max_doc segs)) (field_num F) fv c s = Ok (a, s', c') /\ reads_key (s, ty) a /\ cache_ok c'.
  Proof.
    intros HT Hfit HC. unfold get_comparator. rewrite (evaluate_ok s ty HT). cbn [sf_type]. pose proof HT as (HK & HN & _). assert (HIn : forall k x, nth_error slots k = Some (Some x) -> In (Some x) slots) by (intros k x; apply nth_error_In).
    destruct (klass_of ty) as [k|] eqn:EK.
    - destruct (fis_get F (sf_field s)) as [(n, fi)|] eqn:EF; [|destruct ty; try discriminate EK; destruct HK; reflexivity]. destruct (get_ok fv c (sf_field s) n fi k EF Hfit HC) as (x & c' & E & HC' & HH). rewrite E. eexists _, _, c'. split; [reflexivity|]. split; [|exact HC'].
      unfold reads_key. cbn [fst snd comp_of c_type c_rev c_long c_str]. split; [reflexivity|]. split; [reflexivity|]. intros j d Hd. assert (Hj : 0 <= Z.of_nat j < Z.of_nat size) by (assert (j < size)%nat by (apply nth_error_Some; congruence); lia).
      pose proof (slot_greatest n j d Hd) as G. assert (EFO : fof (sf_field s) d = highest (map o_text (occs_in ana max F n d))) by (unfold field_of; rewrite EF; reflexivity). rewrite <- EFO in G.
      pose proof (holds_val i r y (Z.of_nat n) HD (field_ok _ _ _ _) del scan_ld scan_g size (in_range_docs n) k x _ _ HH Hj G) as EV. unfold written. rewrite EV. pose proof (HN) as HN'.
      destruct ty; try discriminate EK; apply some_inj in EK; subst k; cbn [key_num]; rewrite ?EF; destruct (fof (sf_field s) d) as [t|] eqn:Et; cbn [val_at val_of number_of]; try (split; reflexivity).
      + specialize (HN d t (HIn j d Hd) Et). destruct (scan_ld t); [split; reflexivity|destruct HN; reflexivity].
      + specialize (HN d t (HIn j d Hd) Et). destruct (scan_g t); [split; reflexivity|destruct HN; reflexivity].
      + split; [reflexivity|]. exact (holds_text i r y (Z.of_nat n) HD (field_ok _ _ _ _) del scan_ld scan_g size (in_range_docs n) x _ t HH Hj G).
      + split; [reflexivity|]. destruct HH as (_ & -> & _). reflexivity.
    - eexists _, _, c. split; [reflexivity|]. split; [|exact HC]. unfold reads_key. cbn [fst snd c_type c_rev]. split; [reflexivity|]. split; [reflexivity|]. intros j d _. destruct ty; try discriminate EK; split; auto.
  Qed.
  Lemma comparators_ok fv : forall sort tys c, Forall2 typ sort tys -> Forall (fun s => fits fv (sf_field s)) sort -> cache_ok c ->
    exists cs s' c', comparators scan_ld scan_g len_d len_f r del (rd_max_doc segs) (live del (rd_max_doc segs)) (field_num F) fv c sort = Ok (cs, s', c') /\ Forall2 reads_key (combine sort tys) cs /\ cache_ok c'.
  Proof.
    intros sort tys c H. revert c. induction H as [|s ty sort tys HT HS IH]; intros c HF HC; [exists [], [], c; cbn; auto|]. inversion HF as [|? ? F1 F2]; subst. cbn [comparators]. destruct (comparator_ok fv c s ty HT F1 HC) as (a & s' & c1 & -> & G1 & G2). destruct (IH c1 F2 G2) as (cs & t' & c2 & -> & G3 & G4). eexists _, _, c2. split; [reflexivity|]. split; [constructor; auto|exact G4].
  Qed.
  Lemma reads_keys a b xa xb : stored slots a xa -> stored slots b xb -> forall l cs, Forall2 reads_key l cs -> (by_keys coll (map fst cs) a b <-> by_keys coll (map ideal l) a b).
  Proof.
    intros Sa Sb l cs H. apply by_keys_ext. induction H as [|p c l cs (K1 & K2 & K3) HF IH]; cbn [map]; constructor; [|exact IH]. split; [exact K2|]. intros u v Hu Hv.
    assert (HS : forall u, u = a \/ u = b -> exists x, stored slots u x) by (intros w [E|E]; subst w; eauto). destruct (HS u Hu) as (xu & U1 & U2). destruct (HS v Hv) as (xv & V1 & V2). destruct (K3 _ _ U2) as (_ & KU). destruct (K3 _ _ V2) as (_ & KV). rewrite Z2Nat.id in KU, KV by lia.
    unfold key_lt, key_eq. rewrite K1. change (c_type (ideal p)) with (snd p). cbn [ideal c_long c_str]. rewrite U2, V2. destruct (snd p); rewrite ?KU, ?KV; tauto.
  Qed.
  Lemma reads_written cs l h x : Forall2 reads_key l cs -> stored slots h x -> forallb (fun c : comp * (Z -> bool) => snd c (h_doc h)) cs = true.
  Proof. intros H (S1 & S2). induction H as [|p c l cs (_ & _ & K3) HF IH]; [reflexivity|]. cbn [forallb]. rewrite IH. destruct (K3 _ _ S2) as (G & _). rewrite Z2Nat.id in G by lia. rewrite G. reflexivity. Qed.

  (* the filter *)
  Definition passes (o : option (list Z * range)) (x : document) : Prop := match o with None => True | Some (f, g) => doc_has ana max F x f (in_range g) end.
  Lemma filter_ok o : pidx_open i r -> exists n, forall fv, (n <= fv)%nat -> exists bits, filter_bits r del (field_num F) fv o = Some bits /\ forall k x, nth_error slots k = Some (Some x) -> (match bits with Some b => b (Z.of_nat k) | None => true end = true <-> passes o x).
  Proof.
    intros HO. pose proof H1 as (C1 & C2 & C3 & C4 & C5 & C6 & C7). unfold filter_bits. destruct o as [(f, g)|]; [|exists O; intros fv _; exists None; split; [reflexivity|]; cbn [passes]; tauto]. cbn [passes]. unfold field_num, doc_has. destruct (fis_get F f) as [(n, fi)|] eqn:EF; cbn [option_map fst].
    - destruct (text_ok i r del (Z.of_nat n) g HO (field_ok _ _ _ _)) as (m & Hm). exists m. intros fv Hfv. destruct (Hm fv Hfv) as (bv & -> & Hbv). cbn [obind]. eexists. split; [reflexivity|]. intros k x Hx. rewrite existsb_exists. pose proof (has_term_docs ana norm zip unzip max (c_interval cfg) (c_skip cfg) F C1 H2 ts n (in_range g) (Z.of_nat k) R3) as G. split.
      + intros (d & Hd & E). apply Z.eqb_eq in E. subst d. apply Hbv, G in Hd. destruct Hd as (k' & x' & E' & Hk' & Hx'). replace k' with k in Hk' by lia. rewrite Hx in Hk'. apply some_inj, some_inj in Hk'. subst x'. exact Hx'.
      + intros Hx'. exists (Z.of_nat k). split; [|apply Z.eqb_refl]. apply Hbv, G. eauto.
    - exists O. intros fv _. cbn [rfilt_get_bv obind]. eexists. split; [reflexivity|]. intros k x _. cbn. split; [discriminate|intros []].
  Qed.

  Variables (calc : Z -> Z -> Z) (sim : fscore -> Z) (srt : list (list Z) -> list nat).
  Hypothesis HQS : qs_ok srt.
  Hypothesis HO : pidx_open i r.
  Notation searchp fu fv := (search calc sim srt scan_ld scan_g len_d len_f coll r del (rd_max_doc segs) (field_num F) fu fv).
  Notation answer := (answered ana max F scan_ld scan_g coll slots sim).
  Notation asks := (page_ok ana max F scan_ld scan_g len_d len_f slots (added os)).
  Lemma fits_all (sort : list sfield) : exists n, forall fv, (n <= fv)%nat -> Forall (fun s => fits fv (sf_field s)) sort.
  Proof.
    induction sort as [|s sort (n & IH)]; [exists O; constructor|]. exists (Nat.max n (match fis_get F (sf_field s) with Some (k, _) => enough i y (Z.of_nat k) | None => O end)). intros fv Hfv. constructor; [|apply IH; lia]. unfold fits. destruct (fis_get F (sf_field s)) as [(k, fi)|]; [lia|exact Logic.I].
  Qed.
  Lemma page_step p : asks (fst p) (snd p) -> fine ana max F calc sim os slots (rq_query (fst p)) ->
    exists n, forall fu, (n <= fu)%nat -> forall t, tir_used r t -> exists out t', answer p out /\ tir_used r t' /\
      exists n2, forall fv, (n2 <= fv)%nat -> forall c, cache_ok c -> exists c', searchp fu fv (fst p) c t = Some (out, c', t') /\ cache_ok c'.
  Proof.
    destruct p as (q, tys). cbn [fst snd]. intros (P1 & P2 & P3 & P4) (Q1 & Q2).
    destruct (searched_at ana norm zip unzip fuel cfg buf0 fis os calc sim srt ts HQS H1 H2 R3 R4 R6 (rq_query q) Q1 Q2) as (n & Hn). exists n. intros fu Hfu t U. destruct (Hn fu Hfu t U) as (L0 & t' & (n2 & E2) & U' & S0 & I0). clear Hn.
    destruct (filter_ok (rq_filter q) HO) as (nf & Hf). destruct (Hf nf (Nat.le_refl _)) as (bits0 & E0 & B0).
    assert (HL0 : forall d, In d L0 -> exists k x, d = Z.of_nat k /\ nth_error slots k = Some (Some x)) by (intros d Hd; apply I0 in Hd; destruct Hd as (k & x & K1 & K2 & _); eauto).
    pose (g := fun d => mkHit d (rq_score q d)). pose (L := filter (fun d => match bits0 with Some b => b d | None => true end) L0).
    assert (SL : StronglySorted Z.lt L) by (apply sorted_filter, S0).
    assert (IL : forall d, In d L <-> wanted ana max F slots sim q d).
    { intros d. unfold L, wanted. rewrite filter_In, I0. split.
      - intros ((k & x & -> & K2 & K3) & K4). exists k, x. splits; auto. exact (proj1 (B0 k x K2) K4).
      - intros (k & x & -> & K2 & K3 & K4). split; [exists k, x; auto|]. exact (proj2 (B0 k x K2) K4). }
    pose (sortb := match rq_sort q with Some _ => true | None => false end). pose (l := match rq_sort q with Some sort => combine sort tys | None => [] end). pose (cs := map ideal l).
    assert (HNL : NoDup (map h_doc (map g L))) by (rewrite map_map; cbn [g h_doc]; rewrite map_id; apply sorted_NoDup, SL).
    destruct (ranking_ex coll Hcoll sortb cs (map g L)) as (R & HR).
    assert (Hst : forall h, In h (map g L) -> exists x, stored slots h x).
    { intros h Hh. apply in_map_iff in Hh. destruct Hh as (d & <- & Hd). apply filter_In in Hd. destruct Hd as (Hd & _). destruct (HL0 d Hd) as (k & x & -> & Hk). exists x. split; cbn [g h_doc]; [lia|]. rewrite Nat2Z.id. exact Hk. }
    assert (Hord : forall a b, In a (map g L) -> In b (map g L) -> (order coll sortb cs a b <-> in_order ana max F scan_ld scan_g coll slots (rq_sort q) tys a b)).
    { intros a b Ha Hb. unfold order, in_order, sortb, cs, l. destruct (rq_sort q) as [sort|]; [|reflexivity]. destruct (Hst a Ha) as (xa & Sa). destruct (Hst b Hb) as (xb & Sb). assert (Hkn : Forall known (combine sort tys)) by (clear - P4; induction P4 as [|s ty sort tys HT HS IH]; [constructor|]; constructor; [exact (typed_known s ty HT)|exact IH]).
      rewrite (ideal_order a b xa xb _ Hkn Sa Sb). split; [eauto|]. intros (x & z & Sx & Sz & G). replace xa with x by (destruct Sa as (_ & A), Sx as (_ & B); congruence). replace xb with z by (destruct Sb as (_ & A), Sz as (_ & B); congruence). exact G. }
    exists (Ok (mkTd (Z.of_nat (length L)) (slice (rq_first q) (rq_num q) R) (best_score (map g L)))), t'. split; [|split; [exact U'|]].
    { unfold answered, answered_by. cbn [fst snd]. eexists _, L, R. split; [reflexivity|]. split; [exact SL|]. split; [exact IL|]. fold g. split; [apply (ranking_ext _ _ _ _ Hord); exact HR|]. split; [|cbn [td_total td_hits td_max]; splits; auto; apply best_is]. intros R' HR'. apply (ranking_ext _ _ _ _ Hord) in HR'. exact (ranking_unique coll sortb cs _ R R' Hcoll HNL HR HR'). }
    destruct (fits_all (match rq_sort q with Some sort => sort | None => [] end)) as (n3 & HF3). exists (Nat.max n2 (Nat.max nf n3)). intros fv Hfv c HC.
    destruct (Hf fv ltac:(lia)) as (bits & EB & HB). specialize (E2 fv ltac:(lia)). specialize (HF3 fv ltac:(lia)). destruct (visit_look _ _ _ _ _ _ _ _ _ _ _ _ _ E2) as (o & EV & Ho).
    assert (EL : filter (fun d => match bits with Some b => b d | None => true end) L0 = L).
    { apply filter_ext_in. intros d Hd. destruct (HL0 d Hd) as (k & x & -> & Hk). apply Bool.eq_iff_eq_true. rewrite (HB k x Hk), (B0 k x Hk). tauto. }
    destruct (max_size_some (rq_first q) (rq_num q) P1 P2 P3) as (ms & Hms).
    assert (HEmpty : L0 = [] -> L = [] /\ R = []). { intros E. assert (EN : L = []) by (unfold L; rewrite E; reflexivity). split; [exact EN|]. destruct HR as (HP & _). rewrite EN in HP. cbn [map] in HP. apply Permutation_nil in HP. exact HP. }
    assert (Hsub : forall cs', sub_ok (mkSub (option_map (map g) o) (live del (rd_max_doc segs)) bits None cs' (rd_max_doc segs))).
    { intros cs'. unfold sub_ok. cbn [u_hits u_max u_live]. pose proof mx_size as EM. pose proof size_small as ES. split; [|lia]. destruct Ho as [(-> & _)|(-> & HLv)]; cbn [option_map]; [exact Logic.I|]. rewrite map_map. cbn [g h_doc]. rewrite map_id. split; [exact S0|]. split; [|intros E; destruct (HLv E)]. apply Forall_map, Forall_forall. intros d Hd. cbn [g h_doc]. destruct (HL0 d Hd) as (k & x & -> & Hk). assert (k < size)%nat by (apply nth_error_Some; congruence). lia. }
    assert (Hhits : forall cs', hits_of (mkSub (option_map (map g) o) (live del (rd_max_doc segs)) bits None cs' (rd_max_doc segs)) = map g L).
    { intros cs'. destruct Ho as [(-> & E)|(-> & _)]; cbn [option_map]; [destruct (HEmpty E) as (-> & _); reflexivity|]. rewrite (filter_hits g (fun d => eq_refl)), EL. reflexivity. }
    assert (Hsea : forall cs', (forall a b, In a (map g L) -> In b (map g L) -> (order coll sortb cs a b <-> order coll sortb cs' a b)) ->
      isea_search_w coll (mkSub (option_map (map g) o) (live del (rd_max_doc segs)) bits None cs' (rd_max_doc segs)) (rq_first q) (rq_num q) sortb = Found (mkTd (Z.of_nat (length L)) (slice (rq_first q) (rq_num q) R) (best_score (map g L)))).
    { intros cs' HE. rewrite (isea_ok coll Hcoll _ _ _ ms sortb R (Hsub cs') P1 P2 Hms); rewrite Hhits; [rewrite map_length; reflexivity|]. apply (ranking_ext _ _ _ _ HE). exact HR. }
    unfold search. rewrite EB. cbn [obind]. rewrite EV. cbn [obind fst snd]. fold g. unfold sortb, cs, l in *. destruct (rq_sort q) as [sort|] eqn:ES.
    - unfold search_sorted. rewrite Hms. destruct (Z.leb_spec (rq_num q) 0); [lia|]. destruct (Z.ltb_spec (rq_first q) 0); [lia|]. cbn [orb].
      destruct Ho as [(Eo & E)|(Eo & HLv)]; subst o; cbn [option_map].
      + destruct (HEmpty E) as (-> & ->). exists c. split; [|exact HC]. unfold slice. rewrite skipn_nil, firstn_nil. reflexivity.
      + destruct (Z.eqb_spec (live del (rd_max_doc segs)) 0) as [E|_]; [destruct (HLv E)|]. destruct (comparators_ok fv sort tys c P4 HF3 HC) as (cmps & s' & c' & -> & HR1 & HC').
        assert (EW : forallb (fun h => forallb (fun x : comp * (Z -> bool) => snd x (h_doc h)) cmps) (filter (fun h => match bits with Some b => b (h_doc h) | None => true end) (map g L0)) = true).
        { apply forallb_forall. intros h Hh. apply filter_In in Hh. destruct Hh as (Hh & Hb). apply in_map_iff in Hh. destruct Hh as (d & <- & Hd). destruct (Hst (g d)) as (x & Sx); [apply in_map; rewrite <- EL; apply filter_In; split; [exact Hd|exact Hb]|]. exact (reads_written _ _ _ _ HR1 Sx). }
        rewrite EW. cbn [option_map] in Hsea. rewrite (Hsea (map fst cmps)); [|intros a b Ha Hb; cbn [order]; destruct (Hst a Ha) as (xa & Sa); destruct (Hst b Hb) as (xb & Sb); symmetry; exact (reads_keys a b xa xb Sa Sb _ _ HR1)]. exists c'. split; [reflexivity|exact HC'].
    - rewrite (Hsea []); [|intros a b _ _; cbn [order]; tauto]. exists c. split; [reflexivity|exact HC].
  Qed.
  Lemma pages_ok ps : Forall (fun p => asks (fst p) (snd p) /\ fine ana max F calc sim os slots (rq_query (fst p))) ps ->
    exists n, forall fu, (n <= fu)%nat -> forall t, tir_used r t -> exists outs, Forall2 answer ps outs /\ exists n2, forall fv, (n2 <= fv)%nat -> forall c, cache_ok c -> searches calc sim srt scan_ld scan_g len_d len_f coll r del (rd_max_doc segs) (field_num F) fu fv (map fst ps) c t = Some outs.
  Proof.
    intros HP. induction HP as [|p ps (A1 & A2) HP (n1 & IH)].
    - exists O. intros fu _ t U. exists []. split; [constructor|]. exists O. reflexivity.
    - destruct (page_step p A1 A2) as (n0 & H0). exists (Nat.max n0 n1). intros fu Hfu t U. destruct (H0 fu ltac:(lia) t U) as (out & t' & HA0 & U' & m0 & E0). destruct (IH fu ltac:(lia) t' U') as (outs & HAs & m1 & E1).
      exists (out :: outs). split; [constructor; auto|]. exists (Nat.max m0 m1). intros fv Hfv c HC. destruct (E0 fv ltac:(lia) c HC) as (c' & E & HC'). cbn [map searches]. rewrite E. cbn [obind fst snd]. rewrite (E1 fv ltac:(lia) c' HC'). reflexivity.
  Qed.
End TS.

(* searches on the reader of a writer *)
Definition searchesw calc sim srt scan_ld scan_g len_d len_f coll (s : iw) fu fv qs t := searches calc sim srt scan_ld scan_g len_d len_f coll (reader_of (y_segs s)) (rd_is_deleted (y_segs s)) (rd_max_doc (y_segs s)) (field_num (y_fis s)) fu fv qs [] t.
(* a search whose page is found *)
Definition fair ana max F calc sim scan_ld scan_g len_d len_f os slots (p : request * list stype) : Prop := page_ok ana max F scan_ld scan_g len_d len_f slots (added os) (fst p) (snd p) /\ fine ana max F calc sim os slots (rq_query (fst p)).
Theorem paged_after ana norm zip unzip fuel cfg buf0 fis m os calc sim srt scan_ld scan_g len_d len_f coll : let F := fis_of fis (added os) in let max := c_field_length cfg in
  qs_ok srt -> coll_ok coll -> config_ok cfg buf0 (length (added os)) -> (3 <= c_skip cfg)%nat -> codec zip unzip -> log_fits ana max zip (c_interval cfg) F (added os) -> (1 <= m)%nat -> max_ok m None os ->
  exists s slots, iw_run ana norm zip (S fuel) cfg buf0 (iw_open fis [] m) os = Some s /\ somes slots = v_docs (view ana cfg fis m os) /\ Find_Spec.answers ana unzip fuel max F (y_segs s) slots /\
    forall ps, Forall (fair ana max F calc sim scan_ld scan_g len_d len_f os slots) ps -> exists n, forall fu, (n <= fu)%nat -> forall t, tir_used (reader_of (y_segs s)) t ->
      exists outs, (exists n2, forall fv, (n2 <= fv)%nat -> searchesw calc sim srt scan_ld scan_g len_d len_f coll s fu fv (map fst ps) t = Some outs) /\ Forall2 (answered ana max F scan_ld scan_g coll slots sim) ps outs.
Proof.
  intros F max HQS HC H1 H2 H3 H4 H5 H6. destruct (after ana norm zip unzip fuel cfg buf0 fis m os H1 H2 H3 H4 H5 H6) as (s & ts & R1 & R2 & R3 & R4 & R5 & R6 & R7). pose proof H1 as (C1 & C2 & C3 & C4 & C5 & C6 & C7). exists s, (slots_of ts). unfold searchesw. rewrite R2, R7. fold F.
  splits; auto. { rewrite R5. eapply slots_live with (I := c_interval cfg) (kn := c_skip cfg); eauto. } { eapply answers_ok with (I := c_interval cfg) (kn := c_skip cfg); eauto. }
  intros ps HP. assert (HO : pidx_open (pidx_of (c_interval cfg) (c_skip cfg) ts) (reader_of (map (fun t => fst (snd t)) ts))) by (eapply open_ok with (I := c_interval cfg) (kn := c_skip cfg); eauto). destruct (dicts_of _ _ HO) as (y & HD).
  destruct (pages_ok ana norm zip unzip fuel cfg buf0 fis os ts H1 H2 R3 R4 R6 y HD scan_ld scan_g len_d len_f coll HC calc sim srt HQS HO ps HP) as (n & Hn). exists n. intros fu Hfu t U. destruct (Hn fu Hfu t U) as (outs & HA & n2 & E). exists outs. split; [|exact HA]. exists n2. intros fv Hfv. apply E; [exact Hfv|]. apply cache_nil.
Qed.
Theorem paged_committed ana norm zip unzip fuel cfg buf0 fis m os calc sim srt scan_ld scan_g len_d len_f coll : let F := fis_of fis (added os) in let max := c_field_length cfg in
  qs_ok srt -> coll_ok coll -> config_ok cfg buf0 (length (added os)) -> (3 <= c_skip cfg)%nat -> codec zip unzip -> log_fits ana max zip (c_interval cfg) F (added os) -> (1 <= m)%nat -> max_ok m None os ->
  exists s slots, iw_run ana norm zip (S fuel) cfg buf0 (iw_open fis [] m) (os ++ [WCommit]) = Some s /\ somes slots = log ana max F os /\ Find_Spec.answers ana unzip fuel max F (y_segs s) slots /\
    forall ps, Forall (fair ana max F calc sim scan_ld scan_g len_d len_f os slots) ps -> exists n, forall fu, (n <= fu)%nat -> forall t, tir_used (reader_of (y_segs s)) t ->
      exists outs, (exists n2, forall fv, (n2 <= fv)%nat -> searchesw calc sim srt scan_ld scan_g len_d len_f coll s fu fv (map fst ps) t = Some outs) /\ Forall2 (answered ana max F scan_ld scan_g coll slots sim) ps outs.
Proof.
  intros F max HQS HC H1 H2 H3 H4 H5 H6. destruct (paged_after ana norm zip unzip fuel cfg buf0 fis m (os ++ [WCommit]) calc sim srt scan_ld scan_g len_d len_f coll) as (s & slots & R1 & R2 & R3 & R4); rewrite ?added_commit; auto using max_ok_commit.
  unfold fair, fine in R4. rewrite added_commit in R3, R4. exists s, slots. splits; auto. rewrite R2. pose proof (view_is_log ana cfg fis m (os ++ [WCommit])) as G. rewrite (view_commit ana cfg fis m os WCommit), app_nil_r, log_commit, added_commit in G by auto. exact G.
Qed.
