From Verif Require Import Util Strcmp Dict_Model Dict_Spec Dict_Proofs DictCursor_Proofs Post_Model Post_Spec PostRun_Proofs PQueue_Model PQueue_Proofs Multi_Model Mte_Model Mte_Spec Mte_Proofs Mtde_Model Mtde_Spec Mtde_Proofs Expand_Model Expand_Spec Expand_Proofs Range_Model Range_Spec Range_Proofs Tsc_Model Tsc_Spec Tsc_Proofs TscMulti_Proofs.
From Coq Require Import Sorting.Permutation.
Open Scope Z_scope.

(* ---------- one term *)
Lemma used_good v g x t : segrel v g x -> tir_used (POne g) t -> good_tir (v_kn v) (fst g) (g_fs x) (snd g) t.
Proof.
  intros H U. remember (POne g) as r eqn:Er. induction U as [|g0 t f y z t' Eg U IH E].
  - pose proof (z_sgm _ _ _ H) as (H1 & H2 & H3 & H4). destruct (tir_one_thread (g_int x) (g_skip x) (g_fs x) H1 H2 H3 H4) as (fl & s & E1 & E2 & E3). destruct (z_open _ _ _ H) as (O1 & O2). cbn [dict_of fst snd] in O1, O2. rewrite E1 in O1. apply some_inj in O1. subst fl. rewrite E2 in O2. apply some_inj in O2. subst s. destruct (z_x _ _ _ H) as (_ & Ek). rewrite Ek in E3. exact E3.
  - subst r. injection Eg as <-. destruct (good_tir_step (v_kn v) (fst g) (g_fs x) (snd g) t f y IH) as (z2 & t2 & E2 & _ & G). rewrite E in E2. apply some_inj in E2. injection E2 as _ <-. exact G.
Qed.
Lemma seek_new i r y t f x : dicts i r y -> tir_used r t -> pidx_field i f -> exists de de' t', term_docs r = Some de /\ pe_seek r t f x de = Some (de', t') /\ DL i r y de' (plook i f x).
Proof.
  destruct i as [v|mp vs], r as [g|mp' gs st], y as [z|mp2 xs]; cbn [dicts]; try tauto.
  - intros H U _. pose proof (used_good v g z t H U) as G. destruct (good_tir_step (v_kn v) (fst g) (g_fs z) (snd g) t f x G) as (res & t' & E & HT & _).
    cbn [term_docs]. eexists _, _, t'. split; [reflexivity|]. cbn [pe_seek]. rewrite E. cbn [obind fst snd]. split; [reflexivity|]. exists []. pose proof (z_ok _ _ _ H) as (_ & _ & Hk & _ & Hinv & _). rewrite (z_skip _ _ _ H).
    eapply seek_rel; [lia|apply (rel_new [] [] false eq_refl)|]. eapply found_ok; [exact Hinv|exact (z_laid _ _ _ H)|exact HT].
  - intros (-> & -> & -> & Hl & HF & H0) _ Hf. destruct (new_ok3 mp vs gs xs false Hl HF H0) as (m & E & HR & Hfr & Hcu). cbn [term_docs]. rewrite E. cbn [obind]. cbn [pidx_field] in Hf. rewrite Hl in Hf.
    assert (Hfs : field_in mp (length (map dict_of gs)) f) by (rewrite map_length; exact Hf).
    destruct (seek_ok mp vs gs xs false Hl HF f x Hfs m _ [] [] HR Hfr (or_intror eq_refl) ltac:(discriminate)) as (m' & C' & E2 & HR'). eexists _, _, t. split; [reflexivity|]. cbn [pe_seek]. rewrite E2. cbn [obind]. split; [reflexivity|]. cbn [DL]. eauto.
Qed.
Lemma tsc_run_ok i r y del : dicts i r y -> forall os b L, RB i r y del TSC_READ b L -> tsc_run r del b os = Some (s_run L os).
Proof.
  intros HD. assert (H1 : (1 <= TSC_READ)%nat) by (unfold TSC_READ; lia). induction os as [|o os IH]; intros b L HR; cbn [tsc_run s_run]; [reflexivity|].
  assert (EX : exists b', tsc_step r del b o = Some (fst (s_step L o), b') /\ RB i r y del TSC_READ b' (snd (s_step L o))).
  { unfold tsc_step. assert (G : forall z b' M, (z = match M with [] => false | _ => true end) -> match M with [] => RB i r y del TSC_READ b' [] | x :: t => on b' x /\ RB i r y del TSC_READ b' t end ->
      (do v <- tsc_seen (z, b'); Some (v, snd (z, b'))) = Some (fst (s_take M), b') /\ RB i r y del TSC_READ b' (snd (s_take M))).
    { intros z b' M -> HM. destruct M as [|x M]; cbn [s_take fst snd]; unfold tsc_seen; cbn [fst snd]; [split; [reflexivity|exact HM]|]. destruct HM as ((On1 & On2 & On3) & HM). rewrite On3. cbn [obind]. rewrite On1. destruct x. split; [reflexivity|exact HM]. }
    destruct o as [|d]; cbn [s_step].
    - destruct (rb_next_ok i r y del TSC_READ HD H1 b L HR) as (b' & E & HN). rewrite E. cbn [obind]. exists b'. apply G; [reflexivity|exact HN].
    - destruct (rb_skip_ok i r y del TSC_READ HD H1 d b L HR) as (b' & E & HN). rewrite E. cbn [obind]. exists b'. apply G; [reflexivity|]. destruct (from d L); [tauto|exact HN]. }
  destruct EX as (b' & E & HR'). rewrite E. cbn [obind fst snd]. rewrite (IH b' _ HR'). reflexivity.
Qed.
Theorem term_scorer i r del t f x os : pidx_open i r -> tir_used r t -> match f with Some n => pidx_field i n | None => True end ->
  exists b, tw_scorer r t f x = Some b /\ tsc_run r del b os = Some (s_run (hits i del f x) os).
Proof.
  intros HO U Hf. destruct (dicts_of i r HO) as (y & HD). unfold tw_scorer. destruct f as [n|].
  - destruct (seek_new i r y t n x HD U Hf) as (de & de' & t' & E1 & E2 & HDL). rewrite E1. cbn [obind]. rewrite E2. cbn [obind fst snd]. eexists. split; [reflexivity|]. apply (tsc_run_ok i r y del HD). apply rb_new_ok; [unfold TSC_READ; lia|exact HDL].
  - destruct (docs_new i r y HD) as (de & E1 & HDL). rewrite E1. cbn [obind]. eexists. split; [reflexivity|]. change (hits i del None x) with (live del []). apply (tsc_run_ok i r y del HD). apply rb_new_ok; [unfold TSC_READ; lia|exact HDL].
Qed.

(* ---------- the documents of a term *)
Lemma live_incr del l : StronglySorted (fun a b : post => fst a < fst b) l -> Forall (fun p => 0 <= fst p) l -> incr (live del l).
Proof.
  intros HS HF. unfold live. induction l as [|p l IH]; [split; constructor|]. inversion HS as [|? ? HS1 HS2]; inversion HF as [|? ? HF1 HF2]; subst. cbn [filter]. destruct (negb (del (fst p))); [|auto]. cbn [map]. destruct (IH HS1 HF2) as (A & B). split; constructor; auto.
  rewrite Forall_forall in *. intros z Hz. apply in_map_iff in Hz. destruct Hz as (q & <- & Hq). apply filter_In in Hq. cbn. apply HS2. tauto.
Qed.
Lemma hits_incr i r del f x : pidx_open i r -> incr (hits i del f x).
Proof.
  intros HO. destruct f as [n|]; [|split; constructor]. cbn [hits]. destruct i as [v|mp vs], r as [g|mp' gs st]; cbn [pidx_open] in HO; try tauto; cbn [plook].
  - destruct HO as ((_ & _ & _ & _ & Hinv & _) & _). destruct (postings_ok (v_fs v) n x Hinv) as (H1 & H2 & _). apply live_incr; [exact H2|]. eapply Forall_impl; [|exact H1]. intros p (Hp & _). lia.
  - destruct HO as (_ & _ & HF & _). destruct (joined_sorted mp n x vs O 0 HF) as (H1 & H2). apply live_incr; assumption.
Qed.

(* ---------- finding several terms *)
Section OPEN.
  Variables (i : pidx) (r : prdr) (y : idx) (f : Z).
  Hypothesis (HD : dicts i r y) (Hf : pidx_field i f).
  Notation M := (idx_terms y f).
  Definition TE (te : tenum) : Prop :=
    match r, y, te with
    | POne _, IOne x, EOne e => exists p, at_ (g_skip x) f (terms_of (g_fs x) f) p e
    | PMany mp gs _, IMany _ xs, EMany m => exists capa b, inv mp xs (map dict_of gs) f capa b m
    | _, _, _ => False end.
  Lemma terms_ok : exists te, terms (rdr_of r) f = Some te /\ TE te.
  Proof.
    destruct (shape i r y f HD Hf) as [(v & g & x & Ei & Er & Ey)|(mp & vs & gs & xs & Ei & Er & Ey)]; pose proof (y_src i r y f HD Hf) as Hs; pose proof HD as H; pose proof Hf as Hf'; unfold TE; rewrite Er, Ey in *; rewrite Ei in *; cbn [src_of rdr_of terms dicts pidx_field] in *.
    - eexists. split; [reflexivity|]. exists O. apply set_at. exact Hs.
    - destruct H as (_ & _ & _ & Hl & HF & H0). rewrite Hl in Hf'. assert (Hfs : field_in mp (length (map dict_of gs)) f) by (rewrite map_length; exact Hf').
      destruct (new_ok_none mp xs (map dict_of gs) (proj2 Hs) f Hfs) as (m & E & HV). rewrite E. cbn [obind snd]. eexists. split; [reflexivity|]. eexists _, _. exact HV.
  Qed.
  Lemma te_skip_ok t te : TE te -> exists z te', te_skip (rdr_of r) t te = Some (z, te') /\ TE te' /\ match z with Some u => sk i r y f te' u | None => True end /\ (In t M <-> z = Some t).
  Proof.
    intros HT. assert (MS : forall u, nth_error M (below M t) = u -> (In t M <-> u = Some t)).
    { intros u Hu. pose proof (M_sorted i r y f HD Hf) as HS. split; [|intros ->; eapply nth_error_In; exact Hu]. intros Hin. apply In_nth_error in Hin. destruct Hin as (k & Hk).
      pose proof (below_nth M k t t HS Hk) as B1. assert (sltb t t = false) as B2 by (apply sltb_ge; apply sle_refl). rewrite B2 in B1. symmetry in B1. apply Nat.ltb_ge in B1.
      destruct (nth_error M (below M t)) as [x|] eqn:Ex; [|apply nth_error_None in Ex; assert (k < length M)%nat by (apply nth_error_Some; congruence); lia]. subst u. f_equal.
      pose proof (below_nth M _ x t HS Ex) as B3. rewrite Nat.ltb_irrefl in B3. destruct (Nat.eq_dec (below M t) k) as [E|E]; [subst k; rewrite Ex in Hk; apply some_inj in Hk; exact Hk|]. exfalso.
      pose proof (sorted_lt M HS _ _ _ _ Ex Hk ltac:(lia)) as G. apply sltb_spec in G. congruence. }
    destruct (shape i r y f HD Hf) as [(v & g & x & Ei & Er & Ey)|(mp & vs & gs & xs & Ei & Er & Ey)].
    - pose proof (y_src i r y f HD Hf) as Hs. rewrite Er, Ey in Hs. cbn [src_of rdr_of] in Hs. assert (TEq : forall e p, at_ (g_skip x) f (terms_of (g_fs x) f) p e -> TE (EOne e)) by (intros e p G; unfold TE; rewrite Er, Ey; eauto).
      unfold TE in HT. rewrite Er, Ey in HT. destruct te as [e|]; [|destruct HT]. destruct HT as (p & HT).
      set (L := terms_of (g_fs x) f) in *. destruct (scan_ok x (dict_of g) f _ _ t Hs HT) as (e' & p' & E & Hat & Hp1 & _). fold L in E, Hat, Hp1. eexists _, (EOne e'). split; [rewrite Er; cbn [te_skip rdr_of]; rewrite E; reflexivity|]. split; [eauto|].
      specialize (MS _ eq_refl). rewrite Ey in MS. cbn [idx_terms] in MS. fold L in MS. rewrite below_first, nth_error_map in MS. split; [|rewrite Ey; cbn [idx_terms]; fold L; exact MS].
      destruct (nth_error L (first_ge L t)) as [c|] eqn:Ec; cbn [option_map]; [|exact Logic.I].
      assert (p' = S (first_ge L t)) as -> by (apply Hp1; intros EL; rewrite EL in Ec; destruct (first_ge [] t); discriminate). pose proof (one_stands i r y f HD Hf v g x Ei Er Ey (S (length L)) (first_ge L t) e' c ltac:(fold L; lia) Ec Hat) as HS. inversion HS; assumption.
    - pose proof HD as H. pose proof Hf as Hf'. rewrite Ei, Er, Ey in H. rewrite Ei in Hf'. cbn [dicts pidx_field] in H, Hf'. destruct H as (_ & _ & _ & Hl & HF & H0). rewrite Hl in Hf'. pose proof (Hsrc vs gs xs Hl HF) as Hs. assert (Hfs : field_in mp (length (map dict_of gs)) f) by (rewrite map_length; exact Hf').
      assert (EM : M = union (lists mp f O xs)) by (rewrite Ey; reflexivity).
      assert (TEq : forall m capa b, inv mp xs (map dict_of gs) f capa b m -> TE (EMany m)) by (intros m capa b G; unfold TE; rewrite Er, Ey; eauto).
      unfold TE in HT. rewrite Er, Ey in HT. destruct te as [|m]; [destruct HT|]. destruct HT as (capa & b & HV). destruct (skip_ok mp xs (map dict_of gs) Hs f Hfs _ _ m t HV) as (q' & subs' & E2 & HV2). 
      assert (EK : te_skip (rdr_of r) t (EMany m) = do z <- mte_next (map dict_of gs) (mkMte q' subs' (q_term m) (q_df m) (q_tis m)); Some (fst z, EMany (snd z))) by (rewrite Er; cbn [te_skip rdr_of]; unfold mte_skip_to; rewrite E2; reflexivity).
      pose proof (next_inv mp xs (map dict_of gs) Hs f Hfs _ _ _ (HV2 (q_term m) (q_df m) (q_tis m))) as HN. rewrite <- EM in HN. specialize (MS _ eq_refl). rewrite EK. destruct (nth_error M (below M t)) as [u|] eqn:Eu.
      + destruct HN as (m2 & E3 & HV3 & _ & _ & HT). rewrite E3. cbn [obind fst snd]. eexists _, _. split; [reflexivity|]. split; [eauto|]. split; [|exact MS].
        assert (G : stands i r y f (EMany m2) u (skipn (S (below M t)) M)) by (apply (many_stands i r y f HD Hf mp vs gs xs Ei Er Ey capa (S (length M)) (below M t) m2 u); auto; lia). inversion G; assumption.
      + destruct HN as (m2 & E3 & HV3 & _). rewrite E3. cbn [obind fst snd]. eexists _, _. split; [reflexivity|]. split; [eauto|]. split; [exact Logic.I|exact MS].
  Qed.
  Variable del : Z -> bool.
  Notation H t := (hits i del (Some f) t).
  (* the wrappers l for the terms ts, the first of which has number k *)
  Fixpoint opened_as (k : nat) (ts : list (list Z)) (l : list (nat * rbuf)) (Ls : list (list (Z * Z))) : Prop :=
    match ts with
    | [] => l = [] /\ Ls = []
    | t :: ts' => (exists b l' Ls', l = (k, b) :: l' /\ Ls = H t :: Ls' /\ RB i r y del TDEW_READ b (H t) /\ b_doc b = -1 /\ opened_as (S k) ts' l' Ls') \/ (H t = [] /\ opened_as (S k) ts' l Ls)
    end.
  Lemma open_terms_ok : forall ts k te, TE te -> exists l Ls, open_terms r ts k te = Some l /\ opened_as k ts l Ls.
  Proof.
    induction ts as [|t ts IH]; intros k te HT; cbn [open_terms opened_as]; [exists [], []; auto|].
    destruct (te_skip_ok t te HT) as (z & te' & E & HT' & HS & Hin). rewrite E. cbn [obind fst snd]. destruct (IH (S k) te' HT') as (l & Ls & El & HO).
    destruct (match z with Some u => seqb u t | None => false end) eqn:Ez.
    - destruct z as [u|]; [|discriminate]. apply seqb_spec in Ez. subst u. destruct (docs_new i r y HD) as (de & Ed & HDL). rewrite Ed. cbn [obind]. destruct (HS de [] HDL) as (de' & Es & HDL'). rewrite Es. cbn [obind]. rewrite El. cbn [obind].
      eexists _, _. split; [reflexivity|]. left. eexists _, l, Ls. split; [reflexivity|]. split; [reflexivity|]. split; [apply rb_new_ok; [unfold TDEW_READ; lia|exact HDL']|]. split; [reflexivity|exact HO].
    - exists l, Ls. split; [exact El|]. right. split; [|exact HO]. cbn [hits]. rewrite (absent i r y f HD Hf); [reflexivity|]. intros G. apply Hin in G. subst z. rewrite (proj2 (seqb_spec t t) eq_refl) in Ez. discriminate.
  Qed.
End OPEN.

(* ---------- the numbers of the terms *)
Fixpoint lparts (ns : list nat) (ls : list (list (Z * Z))) (d : Z) : list (nat * Z) :=
  match ns, ls with n :: ns', l :: t => match find (fun x => fst x =? d) l with Some x => (n, snd x) :: lparts ns' t d | None => lparts ns' t d end | _, _ => [] end.
Lemma parts_l d : forall ls k, parts k ls d = lparts (seq k (length ls)) ls d.
Proof. induction ls as [|l ls IH]; intros k; [reflexivity|]. cbn [parts length seq lparts]. rewrite IH. reflexivity. Qed.
Lemma lparts_named names d : forall ls ns, map (fun c : nat * Z => (nth (fst c) names O, snd c)) (lparts ns ls d) = lparts (map (fun n => nth n names O) ns) ls d.
Proof. induction ls as [|l ls IH]; intros [|n ns]; try reflexivity. cbn [lparts map]. destruct (find _ l); cbn [map fst snd]; rewrite IH; reflexivity. Qed.
Lemma nth_seq (names : list nat) : map (fun n => nth n names O) (seq O (length names)) = names.
Proof.
  apply nth_ext with (d := O) (d' := O); [rewrite map_length, seq_length; reflexivity|]. intros n Hn. rewrite map_length, seq_length in Hn. rewrite (nth_indep _ O (nth O names O)) by (rewrite map_length, seq_length; exact Hn). rewrite (map_nth (fun n => nth n names O)), seq_nth by exact Hn. reflexivity.
Qed.
Lemma opened_len i r y f del : forall ts k l Ls, opened_as i r y f del k ts l Ls -> length l = length Ls.
Proof. induction ts as [|t ts IH]; intros k l Ls; cbn [opened_as]; [intros (-> & ->); reflexivity|]. intros [(b & l' & Ls' & -> & -> & _ & _ & HO)|(_ & HO)]; [cbn; f_equal|]; eapply IH; exact HO. Qed.
Lemma opened_parts i r y f del d : forall ts k l Ls, opened_as i r y f del k ts l Ls -> lparts (map fst l) Ls d = parts k (map (hits i del (Some f)) ts) d.
Proof.
  induction ts as [|t ts IH]; intros k l Ls; cbn [opened_as]; [intros (-> & ->); reflexivity|]. cbn [map parts]. intros [(b & l' & Ls' & -> & -> & _ & _ & HO)|(E & HO)].
  - cbn [map fst lparts]. rewrite (IH _ _ _ HO). reflexivity.
  - rewrite E. cbn [find]. apply IH. exact HO.
Qed.
Lemma opened_ws i r y f del : forall ts k l Ls, opened_as i r y f del k ts l Ls -> Forall2 (fun w L => RB i r y del TDEW_READ w L /\ b_doc w = -1) (map snd l) Ls.
Proof. induction ts as [|t ts IH]; intros k l Ls; cbn [opened_as]; [intros (-> & ->); constructor|]. intros [(b & l' & Ls' & -> & -> & H1 & H2 & HO)|(_ & HO)]; [cbn [map snd]; constructor; [auto|]|]; eapply IH; exact HO. Qed.
Lemma opened_incr i r y f del : pidx_open i r -> forall ts k l Ls, opened_as i r y f del k ts l Ls -> Forall incr Ls.
Proof. intros HO0. induction ts as [|t ts IH]; intros k l Ls; cbn [opened_as]; [intros (-> & ->); constructor|]. intros [(b & l' & Ls' & -> & -> & H1 & H2 & HO)|(_ & HO)]; [constructor; [eapply hits_incr; exact HO0|]|]; eapply IH; exact HO. Qed.
(* every list of lists has a merge *)
Fixpoint zins (d : Z) (l : list Z) : list Z := match l with [] => [d] | x :: t => if d <? x then d :: l else if d =? x then l else x :: zins d t end.
Lemma zins_in d l x : In x (zins d l) <-> x = d \/ In x l.
Proof. induction l as [|a l IH]; cbn [zins]; [cbn; intuition|]. destruct (Z.ltb_spec d a); [cbn; intuition|]. destruct (Z.eqb_spec d a); [subst; cbn; intuition|]. cbn [In]. rewrite IH. intuition. Qed.
Lemma zins_sorted d l : StronglySorted Z.lt l -> StronglySorted Z.lt (zins d l).
Proof.
  induction 1 as [|a l HS IH HF]; cbn [zins]; [repeat constructor|]. destruct (Z.ltb_spec d a).
  - constructor; [constructor; auto|]. constructor; [exact H|]. eapply Forall_impl; [|exact HF]. intros; lia.
  - destruct (Z.eqb_spec d a); [constructor; auto|]. constructor; [exact IH|]. apply Forall_forall. intros x Hx. apply zins_in in Hx. destruct Hx as [->|Hx]; [lia|]. rewrite Forall_forall in HF. apply HF. exact Hx.
Qed.
Lemma merge_ex ls : exists M, merge_of ls M.
Proof.
  assert (EX : exists D, StronglySorted Z.lt D /\ forall d, In d D <-> exists l x, In l ls /\ In x l /\ fst x = d).
  { exists (fold_right zins [] (map fst (concat ls))). split; [generalize (map fst (concat ls)); induction l as [|a l IH]; cbn [fold_right]; [constructor|apply zins_sorted; exact IH]|].
    intros d. assert (G : forall l, In d (fold_right zins [] l) <-> In d l) by (induction l as [|a l IH]; cbn [fold_right]; [tauto|rewrite zins_in, IH; cbn; intuition]). rewrite G, in_map_iff. split.
    - intros (x & <- & Hx). apply in_concat in Hx. destruct Hx as (l & Hl & Hx). eauto.
    - intros (l & x & Hl & Hx & <-). exists x. split; [reflexivity|]. apply in_concat. eauto. }
  destruct EX as (D & HS & HD). exists (map (fun d => (d, parts O ls d)) D). split.
  - clear HD. induction HS as [|a l HS IH HF]; cbn [map]; constructor; [exact IH|]. apply Forall_forall. intros x Hx. apply in_map_iff in Hx. destruct Hx as (b & <- & Hb). rewrite Forall_forall in HF. exact (HF b Hb).
  - intros d c. rewrite in_map_iff. split.
    + intros (e & E & He). injection E as <- <-. split; [reflexivity|]. apply parts_in. apply HD. exact He.
    + intros (-> & Hc). exists d. split; [reflexivity|]. apply HD. eapply parts_in. exact Hc.
Qed.
Lemma run_map {A B} (g : Z * A -> Z * B) : (forall x, fst (g x) = fst x) -> forall os l, s_run (map g l) os = map (option_map g) (s_run l os).
Proof.
  intros Hg. assert (HF : forall d l, from d (map g l) = map g (from d l)) by (intros d; induction l as [|x l IH]; [reflexivity|]; cbn [map from]; rewrite Hg; destruct (fst x <? d); [exact IH|reflexivity]).
  assert (HT : forall l, s_take (map g l) = (option_map g (fst (s_take l)), map g (snd (s_take l)))) by (intros [|x l]; reflexivity).
  induction os as [|o os IH]; intros l; [reflexivity|]. cbn [s_run map]. assert (E : s_step (map g l) o = (option_map g (fst (s_step l o)), map g (snd (s_step l o)))) by (destruct o; cbn [s_step]; rewrite ?HF; apply HT).
  rewrite E. cbn [fst snd]. rewrite IH. reflexivity.
Qed.
Theorem multi_scorer i r del f ts : pidx_open i r -> pidx_field i f -> ts <> [] ->
  exists M, merge_of (map (hits i del (Some f)) ts) M /\
    exists sc, multi_tw_scorer r (Some f) ts = Some sc /\
      match sc with
      | None => M = []
      | Some (s, names) => forall os, Forall sop_ok os -> exists res, multi_run r del s os = Some res /\ Forall2 res_eq (map (option_map (named names)) res) (s_run M os)
      end.
Proof.
  intros HO Hf Hts. destruct (dicts_of i r HO) as (y & HD). destruct (terms_ok i r y f HD Hf) as (te & Et & HTE). destruct (open_terms_ok i r y f HD Hf del ts O te HTE) as (l & Ls & El & HA).
  destruct (merge_ex Ls) as (M' & HM'). set (names := map fst l).
  assert (HP : forall d, map (fun c : nat * Z => (nth (fst c) names O, snd c)) (parts O Ls d) = parts O (map (hits i del (Some f)) ts) d).
  { intros d. rewrite parts_l, lparts_named. rewrite <- (opened_len _ _ _ _ _ _ _ _ _ HA). replace (length l) with (length names) by (unfold names; apply map_length). rewrite nth_seq. apply (opened_parts i r y f del d ts O l Ls HA). }
  exists (map (named names) M'). assert (HM : merge_of (map (hits i del (Some f)) ts) (map (named names) M')).
  { destruct HM' as (HS & HI). split.
    - clear HI. induction HS as [|a m HS IH HF]; cbn [map]; constructor; [exact IH|]. apply Forall_forall. intros x Hx. apply in_map_iff in Hx. destruct Hx as (b & <- & Hb). rewrite Forall_forall in HF. exact (HF b Hb).
    - intros d c. rewrite in_map_iff. split.
      + intros ((d0 & c0) & E & Hx). unfold named in E. cbn [fst snd] in E. injection E as -> <-. apply HI in Hx. destruct Hx as (-> & Hx). rewrite HP. split; [reflexivity|]. rewrite <- HP. destruct (parts O Ls d); [congruence|discriminate].
      + intros (-> & Hc). exists (d, parts O Ls d). unfold named. cbn [fst snd]. rewrite HP. split; [reflexivity|]. apply HI. split; [reflexivity|]. intros E. apply Hc. rewrite <- HP, E. reflexivity. }
  split; [exact HM|]. assert (EN : map fst l = names) by reflexivity. clearbody names. unfold multi_tw_scorer. destruct ts as [|t0 ts0] eqn:Ets; [congruence|]. rewrite <- Ets in *. rewrite Et. cbn [obind]. rewrite El. cbn [obind]. eexists. split; [reflexivity|]. destruct l as [|c l'] eqn:Ec.
  - assert (Ls = []) as -> by (pose proof (opened_len _ _ _ _ _ _ _ _ _ HA) as G; destruct Ls; [reflexivity|discriminate]). destruct M' as [|(d & c) M']; [reflexivity|]. destruct HM' as (_ & HI). destruct (proj1 (HI d c) (or_introl eq_refl)) as (-> & G). exfalso. apply G. reflexivity.
  - rewrite EN. rewrite <- Ec in HA |- *. intros os Hos. destruct (multi_run_ok i r y del HD os (mkMts (map snd l) None 0 []) M') as (res & Er & HF); [|exact Hos|].
    + exists Ls. split; [exact HM'|]. left. cbn [m_pq m_ws]. split; [reflexivity|]. split; [eapply opened_incr; eauto|eapply opened_ws; eauto].
    + exists res. split; [exact Er|]. rewrite run_map by reflexivity. clear -HF. induction HF as [|a b la lb Hab HF IH]; cbn [map]; constructor; [|exact IH]. destruct a as [(d1 & c1)|], b as [(d2 & c2)|]; cbn in *; auto. destruct Hab as (E & P). split; [exact E|]. apply Permutation_map. exact P.
Qed.
