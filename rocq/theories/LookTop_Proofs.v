(* Searches after a history of a writer. *)
From Verif Require Import Util Codec_Model Strcmp Seg_Model Dict_Model Dict_Spec Token_Model Post_Model Post_Spec PostRun_Proofs Multi_Model Multi_Proofs Mte_Model Mte_Spec Mtde_Model Mtde_Spec Expand_Model Expand_Spec Fuzzy_Model Fuzzy_Spec Range_Model Range_Spec Merge_Model Merge_Spec Fields_Model Fields_Spec Invert_Model Invert_Spec Iw_Model Iw_Spec InvertIndex_Proofs InvertTop_Proofs IwSeg_Proofs IwMerge_Proofs IwRun_Proofs Tsc_Model Tsc_Spec Tpe_Model Tpe_Spec Find_Model Find_Spec Find_Proofs FindTop_Proofs Query_Model Look_Model Look_Spec Look_Proofs LookKept_Proofs.
From Verif Require PhraseWindow_Proofs.
Open Scope Z_scope.

Lemma limits_weak calc sim (few few' : nat -> list Z -> (list Z -> Prop) -> Prop) (last last' : list Z -> (list Z -> Prop) -> Prop) (ord ord' : list Z -> Prop) (st st' : Z -> list Z -> Prop) mx :
  (forall k f P, few k f P -> few' k f P) -> (forall f P, last' f P -> last f P) -> (forall f, ord f -> ord' f) -> (forall z f, st z f -> st' z f) -> forall q, limits calc sim few last ord st mx q -> limits calc sim few' last' ord' st' mx q.
Proof.
  intros H1 H2 H3 H4. induction q as [q Hq|cs IH] using uq_ind2.
  - destruct q as [f x|f p k|f p k|f x pl mn k|f g| |cs|f m|f g|f slop ps]; cbn [limits]; auto; [| | | |destruct (Hq cs eq_refl)| |destruct ps as [|(o, ts) [|p2 ps]]; auto; intros (A & B); split; [auto|]; destruct B as [B|(B & p0 & C & D)]; [left; exact B|right; split; [exact B|]; exists p0; auto]].
    + intros (A & B & C). splits; auto. destruct B; auto.
    + intros [A|(A & B & C & D)]; [auto|right]. splits; auto. destruct C; auto.
    + intros [A|(A & B & C)]; [auto|right]. splits; auto.
    + intros [A|A]; [left; exact A|right]. intros G. apply A. apply H2. exact G.
    + intros [A|A]; [left; exact A|right]. intros G. apply A. apply H2. exact G.
  - cbn [limits]. intros (A & B). split; [|exact B]. clear B. induction cs as [|c cs IHc]; [exact Logic.I|]. inversion IH as [|? ? G1 G2]; subst. destruct A as (A1 & A2). split; [exact (G1 A1)|exact (IHc G2 A2)].
Qed.
Lemma sat_ext sim (has has' : list Z -> (list Z -> Prop) -> Prop) (hasp hasp' : list Z -> Z -> list (Z * list (list Z)) -> Prop) : (forall f P, has f P <-> has' f P) -> (forall f sl ps, hasp f sl ps <-> hasp' f sl ps) -> forall q, sat sim has hasp q <-> sat sim has' hasp' q.
Proof.
  intros H H'. induction q as [q Hq|cs IH] using uq_ind2.
  - destruct q; cbn [sat]; auto; try reflexivity. destruct (Hq cs eq_refl).
  - cbn [sat]. rewrite Forall_forall in IH. unfold comb. assert (E : forall m, In m (map (fun c : occur * uq => (fst c, sat sim has hasp (snd c))) cs) -> exists m', In m' (map (fun c : occur * uq => (fst c, sat sim has' hasp' (snd c))) cs) /\ fst m' = fst m /\ (snd m <-> snd m')).
    { intros m Hm. apply in_map_iff in Hm. destruct Hm as (c & <- & Hc). exists (fst c, sat sim has' hasp' (snd c)). splits; [apply in_map_iff; eauto|reflexivity|apply IH; exact Hc]. }
    assert (E' : forall m, In m (map (fun c : occur * uq => (fst c, sat sim has' hasp' (snd c))) cs) -> exists m', In m' (map (fun c : occur * uq => (fst c, sat sim has hasp (snd c))) cs) /\ fst m' = fst m /\ (snd m <-> snd m')).
    { intros m Hm. apply in_map_iff in Hm. destruct Hm as (c & <- & Hc). exists (fst c, sat sim has hasp (snd c)). splits; [apply in_map_iff; eauto|reflexivity|symmetry; apply IH; exact Hc]. }
    assert (EN : map (fun c : occur * uq => (fst c, sat sim has hasp (snd c))) cs <> [] <-> map (fun c : occur * uq => (fst c, sat sim has' hasp' (snd c))) cs <> []) by (destruct cs; cbn [map]; split; congruence).
    revert E E' EN. generalize (map (fun c : occur * uq => (fst c, sat sim has hasp (snd c))) cs), (map (fun c : occur * uq => (fst c, sat sim has' hasp' (snd c))) cs). clear. intros a b E E' EN.
    assert (G : forall a b : list (occur * Prop), (forall m, In m a -> exists m', In m' b /\ fst m' = fst m /\ (snd m <-> snd m')) -> (forall m, In m b -> exists m', In m' a /\ fst m' = fst m /\ (snd m <-> snd m')) -> (a <> [] <-> b <> []) ->
      (forall m, In m a -> fst m = Must -> snd m) /\ (forall m, In m a -> fst m = MustNot -> ~ snd m) /\ ((exists m, In m a /\ fst m = Must) \/ (exists m, In m a /\ fst m = Should /\ snd m) \/ a <> [] /\ (forall m, In m a -> fst m = MustNot)) ->
      (forall m, In m b -> fst m = Must -> snd m) /\ (forall m, In m b -> fst m = MustNot -> ~ snd m) /\ ((exists m, In m b /\ fst m = Must) \/ (exists m, In m b /\ fst m = Should /\ snd m) \/ b <> [] /\ (forall m, In m b -> fst m = MustNot))).
    { clear. intros a b E E' EN (H1 & H2 & H3). splits.
      - intros m Hm Em. destruct (E' m Hm) as (m' & A1 & A2 & A3). apply A3. apply H1; congruence.
      - intros m Hm Em G. destruct (E' m Hm) as (m' & A1 & A2 & A3). apply (H2 m' A1); [congruence|apply A3; exact G].
      - destruct H3 as [(m & Hm & Em)|[(m & Hm & Em & G)|(N & Hn)]].
        + left. destruct (E m Hm) as (m' & A1 & A2 & A3). exists m'. split; congruence.
        + right. left. destruct (E m Hm) as (m' & A1 & A2 & A3). exists m'. splits; [exact A1|congruence|apply A3; exact G].
        + right. right. split; [apply EN; exact N|]. intros m Hm. destruct (E' m Hm) as (m' & A1 & A2 & A3). rewrite <- A2. apply Hn. exact A1. }
    split; [apply G; assumption|apply G; auto; symmetry; exact EN].
Qed.

(* the positions of terms and of phrases *)
Section POS.
  Variable ana : list Z -> list Z -> list token.
  Variable norm : field_info -> Z -> dfield -> Z -> Z.
  Variable zip : list Z -> list Z.
  Variable unzip : list Z -> option (list Z).
  Notation rseg := (list (Z * list (list Z * list Post_Model.post)) * (wseg * list document))%type.
  Variables (max : Z) (I kn : nat) (F : field_infos) (ts : list rseg).
  Hypothesis HI : (1 <= I)%nat. Hypothesis Hk : (3 <= kn)%nat.
  Hypothesis HR : Forall (rept ana norm zip max I kn F) ts.
  Notation docs := (flat_map (fun t : rseg => snd (snd t)) ts).
  Notation del := (rd_is_deleted (map (fun t : rseg => fst (snd t)) ts)).
  Lemma plook_docs n t x : In x (plook (pidx_of I kn ts) (Z.of_nat n) t) <-> exists k d, fst x = Z.of_nat k /\ nth_error docs k = Some d /\ snd x = at_ t (occs_in ana max F n d) /\ snd x <> [].
  Proof.
    rewrite (plook_ok ana norm zip unzip max I kn F HI Hk) by exact HR. destruct x as (q, ps). cbn [fst snd]. split.
    - intros H. apply (posts_nth_inv ana norm zip max F n t docs O q ps) in H. exact H.
    - intros (k & d & -> & Hx & -> & Hn). apply (posts_nth ana norm zip max F n t docs O k d Hx Hn).
  Qed.
  Lemma has_near_docs n slop ps d : ps <> [] -> has_near (pidx_of I kn ts) (Z.of_nat n) del slop ps d <-> exists k x, d = Z.of_nat k /\ nth_error (slots_of ts) k = Some (Some x) /\
    exists xs, Forall2 (fun (p : Z * list (list Z)) b => exists o, In o (occs_in ana max F n x) /\ In (o_text o) (snd p) /\ o_pos o = b + fst p) ps xs /\ Phrase_Spec.apart slop xs.
  Proof.
    intros Hne. unfold has_near, slots_of.
    assert (HA : forall z t os, In z (at_ t os) <-> exists o, In o os /\ t = o_text o /\ o_pos o = z).
    { intros z t os. unfold at_. rewrite in_map_iff. split; [intros (o & <- & Ho); apply filter_In in Ho; destruct Ho as (H1 & H2); apply seqb_spec in H2; eauto|intros (o & H1 & -> & <-); exists o; split; [reflexivity|]; apply filter_In; split; [exact H1|apply seqb_spec; reflexivity]]. }
    assert (F2 : forall (P Q : Z * list (list Z) -> Z -> Prop) l xs, (forall p b, P p b -> Q p b) -> Forall2 P l xs -> Forall2 Q l xs) by (intros P Q l xs HPQ; induction 1; constructor; auto).
    split.
    - intros (Hd & xs & H & Hap). destruct ps as [|p0 ps]; [congruence|]. assert (X0 : exists t0 x0, In x0 (plook (pidx_of I kn ts) (Z.of_nat n) t0) /\ fst x0 = d) by (inversion H as [|? ? ? ? (t0 & x0 & _ & X0 & E0 & _) _]; eauto). destruct X0 as (t0 & x0 & X0 & E0). apply plook_docs in X0. destruct X0 as (k & x & K1 & K2 & _). exists k, x. rewrite (slots_nth norm max I kn HI Hk), K2. cbn [Nat.add]. rewrite K1 in E0. subst d. rewrite Hd. splits; auto. exists xs. split; [|exact Hap].
      eapply F2; [|exact H]. cbn beta. intros p b (t & y & Y1 & Y2 & Y3 & Y4). apply plook_docs in Y2. destruct Y2 as (k' & x' & Z1 & Z2 & Z3 & _). assert (k' = k) by lia. subst k'. assert (x' = x) by congruence. subst x'. rewrite Z3 in Y4. apply HA in Y4. destruct Y4 as (o & O1 & -> & O2). exists o. auto.
    - intros (k & x & -> & Hx & xs & H & Hap). rewrite (slots_nth norm max I kn HI Hk) in Hx. destruct (nth_error docs k) as [y|] eqn:E; [|discriminate]. cbn [Nat.add] in Hx. apply some_inj in Hx. destruct (del (Z.of_nat k)) eqn:ED; [discriminate|]. apply some_inj in Hx. subst y. split; [reflexivity|]. exists xs. split; [|exact Hap].
      eapply F2; [|exact H]. cbn beta. intros p b (o & O1 & O2 & O3). exists (o_text o), (Z.of_nat k, at_ (o_text o) (occs_in ana max F n x)). cbn [fst snd]. assert (G : In (b + fst p) (at_ (o_text o) (occs_in ana max F n x))) by (apply HA; exists o; auto). splits; auto. apply plook_docs. exists k, x. cbn [fst snd]. splits; auto. intros C. rewrite C in G. destruct G.
  Qed.
End POS.
Lemma at_sorted t os : StronglySorted (fun a b : occ => o_pos a <= o_pos b) os -> StronglySorted Z.le (at_ t os).
Proof.
  unfold at_. induction 1 as [|o os HS IH HF]; cbn [filter map]; [constructor|]. destruct (seqb (o_text o) t); [|exact IH]. cbn [map]. constructor; [exact IH|]. rewrite Forall_forall in *. intros z Hz. apply in_map_iff in Hz. destruct Hz as (q & <- & Hq). apply filter_In in Hq. apply HF. tauto.
Qed.
Lemma lesser_len {A} (a b : list A) : lesser a b -> (length a <= length b)%nat.
Proof. intros H. specialize (H (fun _ => 1%nat)). assert (G : forall l : list A, sum (fun _ => 1%nat) l = length l) by (clear; induction l as [|x l IH]; [reflexivity|]; cbn [length]; rewrite <- IH; reflexivity). rewrite !G in H. exact H. Qed.
Fixpoint sortedb (l : list occ) : bool := match l with [] => true | o :: t => forallb (fun p => o_pos o <=? o_pos p) t && sortedb t end.
Lemma sortedb_ok l : sortedb l = true <-> StronglySorted (fun a b : occ => o_pos a <= o_pos b) l.
Proof.
  induction l as [|o l IH]; cbn [sortedb]; [split; [constructor|reflexivity]|]. rewrite andb_true_iff, IH, forallb_forall. split.
  - intros (H1 & H2). constructor; [exact H2|]. apply Forall_forall. intros p Hp. apply Z.leb_le. apply H1. exact Hp.
  - intros H. apply StronglySorted_inv in H. destruct H as (H1 & H2). split; [|exact H1]. rewrite Forall_forall in H2. intros p Hp. apply Z.leb_le. apply H2. exact Hp.
Qed.
Lemma lesser_test {A} (f : A -> bool) (a b : list A) d : lesser a b -> (forall d, In d b -> f d = true) -> In d a -> f d = true.
Proof.
  intros HL HB Hd. destruct (f d) eqn:E; [reflexivity|]. specialize (HL (fun d => if f d then O else 1%nat)). exfalso.
  assert (G0 : forall l, (forall d, In d l -> f d = true) -> sum (fun d => if f d then O else 1%nat) l = O) by (clear; induction l as [|x l IH]; intros H; [reflexivity|]; cbn; rewrite (H x (or_introl eq_refl)); apply IH; intros; apply H; right; auto).
  rewrite (G0 b) in HL by exact HB.
  assert (G1 : forall l, In d l -> (1 <= sum (fun d => if f d then O else 1%nat) l)%nat) by (intros l; induction l as [|x l IH]; intros Hl; [destruct Hl|]; destruct Hl as [->|Hl]; cbn; [rewrite E; lia|specialize (IH Hl); unfold sum in IH; lia]).
  specialize (G1 a Hd). lia.
Qed.
Lemma lesser_sorted {A} (f : A -> list occ) (a b : list A) d : lesser a b -> (forall d, In d b -> StronglySorted (fun x y : occ => o_pos x <= o_pos y) (f d)) -> In d a -> StronglySorted (fun x y : occ => o_pos x <= o_pos y) (f d).
Proof. intros HL HB Hd. apply sortedb_ok. apply (lesser_test (fun d => sortedb (f d)) a b d HL); [|exact Hd]. intros x Hx. apply sortedb_ok, HB, Hx. Qed.
Lemma lesser_starts {A} (f : A -> list occ) z (a b : list A) d : lesser a b -> (forall d, In d b -> Forall (fun x : occ => z <= o_pos x) (f d)) -> In d a -> Forall (fun x : occ => z <= o_pos x) (f d).
Proof.
  intros HL HB Hd. apply Forall_forall. intros o Ho. apply Z.leb_le. revert o Ho. apply forallb_forall. apply (lesser_test (fun d => forallb (fun o : occ => z <=? o_pos o) (f d)) a b d HL); [|exact Hd]. intros x Hx. apply forallb_forall. intros o Ho. apply Z.leb_le. specialize (HB x Hx). rewrite Forall_forall in HB. auto.
Qed.
Lemma searched_at ana norm zip unzip fuel cfg buf0 fis os calc sim srt (ts : list (list (Z * list (list Z * list Post_Model.post)) * (wseg * list document))) : let F := fis_of fis (added os) in let max := c_field_length cfg in let segs := map (fun t => fst (snd t)) ts in
  qs_ok srt -> config_ok cfg buf0 (length (added os)) -> (3 <= c_skip cfg)%nat ->
  Forall (rept ana norm zip max (c_interval cfg) (c_skip cfg) F) ts -> Forall (fun t => reads ana norm unzip fuel max F (c_skip cfg) (fst (snd t)) (snd (snd t))) ts -> lesser (flat_map (fun t => snd (snd t)) ts) (added os) ->
    forall q, limits calc sim (field_few ana max F (added os)) (last_has ana max F (slots_of ts)) (field_ordered ana max F (added os)) (field_starts ana max F (added os)) (length (slots_of ts)) q -> calm false q = true ->
    exists n, forall fu, (n <= fu)%nat -> forall t, tir_used (reader_of segs) t -> exists L t',
      (exists n2, forall fv, (n2 <= fv)%nat -> look calc sim srt (reader_of segs) (rd_is_deleted segs) (rd_max_doc segs) (field_num F) fu fv q t = Some (L, t')) /\
      tir_used (reader_of segs) t' /\ StronglySorted Z.lt L /\ forall d, In d L <-> exists k x, d = Z.of_nat k /\ nth_error (slots_of ts) k = Some (Some x) /\ sat sim (doc_has ana max F x) (doc_phrase ana max F x) q.
Proof.
  intros F max segs HQS H1 H2 R3 R4 R6. pose proof H1 as (C1 & C2 & C3 & C4 & C5 & C6 & C7).
  assert (HA : answers ana unzip fuel max F (map (fun t => fst (snd t)) ts) (slots_of ts)) by (eapply answers_ok with (I := c_interval cfg) (kn := c_skip cfg); eauto).
  set (i := pidx_of (c_interval cfg) (c_skip cfg) ts). set (r := reader_of (map (fun t => fst (snd t)) ts)). set (del := rd_is_deleted (map (fun t => fst (snd t)) ts)).
  unfold segs. destruct HA as (HM & HD & _). rewrite HM.
  assert (HO : pidx_open i r) by (eapply open_ok with (I := c_interval cfg) (kn := c_skip cfg); eauto).
  assert (HT : forall n P d, Range_Spec.has_term i (Z.of_nat n) del P d <-> exists k x, d = Z.of_nat k /\ nth_error (slots_of ts) k = Some (Some x) /\ doc_with ana max F n P x) by (intros n P d; eapply has_term_docs with (I := c_interval cfg) (kn := c_skip cfg); eauto).
  intros q HL HC.
  assert (HI : forall f P d, ihas del (field_num F) i d f P <-> exists k x, d = Z.of_nat k /\ nth_error (slots_of ts) k = Some (Some x) /\ doc_has ana max F x f P).
  { intros f P d. unfold ihas, field_num, doc_has. destruct (fis_get F f) as [(n, fi)|]; cbn [option_map fst]; [apply HT|]. split; [intros []|intros (k & x & _ & _ & [])]. }
  assert (HB : forall n P d, (0 <= n) -> Range_Spec.has_term i n del P d -> 0 <= d < Z.of_nat (length (slots_of ts))).
  { intros n P d Hn Hd. rewrite <- (Z2Nat.id n Hn) in Hd. apply HT in Hd. destruct Hd as (k & x & -> & Hk & _). assert (k < length (slots_of ts))%nat by (apply nth_error_Some; congruence). lia. }
  assert (HL2 : limits calc sim (ifew (field_num F) i) (fun f P => ihas del (field_num F) i (Z.of_nat (length (slots_of ts)) - 1) f P) (iord (field_num F) i) (istarts (field_num F) i) (Z.to_nat (Z.of_nat (length (slots_of ts)))) q).
  { rewrite Nat2Z.id. eapply limits_weak; [| | | |exact HL].
    - intros k f P. unfold field_few, ifew, field_num. destruct (fis_get F f) as [(n, fi)|]; cbn [option_map fst]; [|auto]. eapply few_at_most with (I := c_interval cfg) (kn := c_skip cfg); eauto.
    - intros f P G. apply HI in G. destruct G as (k & x & E & Hk & Hx). exists x. split; [|exact Hx]. replace (length (slots_of ts) - 1)%nat with k by lia. exact Hk.
    - intros f Ho n t x Ef Hx. unfold field_num in Ef. unfold field_ordered in Ho. destruct (fis_get F f) as [(k0, fi)|]; [|discriminate]. cbn [option_map fst] in Ef. apply some_inj in Ef. subst n. apply (plook_docs ana norm zip unzip max (c_interval cfg) (c_skip cfg) F ts C1 H2 R3) in Hx. destruct Hx as (k & d & _ & K2 & -> & _). apply at_sorted. apply (lesser_sorted (occs_in ana max F k0) _ _ d R6 Ho). eapply nth_error_In; eauto.
    - intros z f Ho n t x Ef Hx. unfold field_num in Ef. unfold field_starts in Ho. destruct (fis_get F f) as [(k0, fi)|]; [|discriminate]. cbn [option_map fst] in Ef. apply some_inj in Ef. subst n. apply (plook_docs ana norm zip unzip max (c_interval cfg) (c_skip cfg) F ts C1 H2 R3) in Hx. destruct Hx as (k & d & _ & K2 & -> & _). unfold at_. apply Forall_map. apply incl_Forall with (l1 := occs_in ana max F k0 d); [intros o Hof; apply filter_In in Hof; tauto|]. apply (lesser_starts (occs_in ana max F k0) z _ _ d R6 Ho). eapply nth_error_In; eauto. }
  assert (HIP : forall f sl ps d, ihasp del (field_num F) i d f sl ps <-> exists k x, d = Z.of_nat k /\ nth_error (slots_of ts) k = Some (Some x) /\ doc_phrase ana max F x f sl ps).
  { intros f sl ps d. unfold ihasp, field_num, doc_phrase. destruct (fis_get F f) as [(n, fi)|]; cbn [option_map fst]; [|split; [intros (_ & [])|intros (k & x & _ & _ & _ & [])]]. split.
    - intros (Hne & G). apply (has_near_docs ana norm zip unzip max (c_interval cfg) (c_skip cfg) F ts C1 H2 R3 n sl ps d Hne) in G. destruct G as (k & x & G1 & G2 & G3). exists k, x. auto.
    - intros (k & x & G1 & G2 & Hne & G3). split; [exact Hne|]. apply (has_near_docs ana norm zip unzip max (c_interval cfg) (c_skip cfg) F ts C1 H2 R3 n sl ps d Hne). eauto. }
  destruct (look_ok calc sim srt r del (Z.of_nat (length (slots_of ts))) (field_num F) i) with (q := q) as (n & Hn); auto.
  - intros f n _. apply field_ok.
  - intros f n P d Ef Hd. apply (HB n P d); [|exact Hd]. unfold field_num in Ef. destruct (fis_get F f) as [(k, fi)|]; [|discriminate]. cbn [option_map fst] in Ef. apply some_inj in Ef. lia.
  - lia.
  - intros f n t x Ef Hx. unfold field_num in Ef. destruct (fis_get F f) as [(k0, fi)|]; [|discriminate]. cbn [option_map fst] in Ef. apply some_inj in Ef. subst n. apply (plook_docs ana norm zip unzip max (c_interval cfg) (c_skip cfg) F ts C1 H2 R3) in Hx. destruct Hx as (k & d & -> & K2 & _ & K4). split; [|exact K4]. assert (Hkl := proj1 (nth_error_Some _ k) (ltac:(rewrite K2; discriminate))). pose proof (lesser_len _ _ R6). unfold C_INT_MAX. nia.
  - exists n. intros fu Hfu t U. destruct (Hn fu Hfu t U) as (L & t' & E & U' & HS & Hin). exists L, t'. splits; auto. intros d. rewrite Hin. split.
    + intros ((Hd & Hdel) & Hs). assert (Hk : (Z.to_nat d < length (slots_of ts))%nat) by lia. destruct (nth_error (slots_of ts) (Z.to_nat d)) as [[x|]|] eqn:Ex.
      * exists (Z.to_nat d), x. splits; [lia|exact Ex|]. eapply sat_ext; [| |exact Hs]; intros; rewrite ?HI, ?HIP; (split; [intros Hx; exists (Z.to_nat d), x; splits; auto; lia|]); intros (k & x' & -> & Hk' & Hx); rewrite Nat2Z.id in Ex; congruence.
      * destruct (HD _ _ Ex) as (G & _). rewrite Z2Nat.id in G by lia. unfold del in Hdel. congruence.
      * apply nth_error_None in Ex. lia.
    + intros (k & x & -> & Hk & Hs). destruct (HD _ _ Hk) as (G & _). assert (k < length (slots_of ts))%nat by (apply nth_error_Some; congruence). split; [split; [lia|exact G]|]. eapply sat_ext; [| |exact Hs]; intros; rewrite ?HI, ?HIP; (split; [|intros Hx; eauto]); intros (k' & x' & E' & Hk' & Hx); replace k' with k in Hk' by lia; congruence.
Qed.

Theorem searched_after ana norm zip unzip fuel cfg buf0 fis m os calc sim srt : let F := fis_of fis (added os) in let max := c_field_length cfg in
  qs_ok srt -> config_ok cfg buf0 (length (added os)) -> (3 <= c_skip cfg)%nat -> codec zip unzip -> log_fits ana max zip (c_interval cfg) F (added os) -> (1 <= m)%nat -> max_ok m None os ->
  exists s slots, iw_run ana norm zip (S fuel) cfg buf0 (iw_open fis [] m) os = Some s /\ somes slots = v_docs (view ana cfg fis m os) /\ answers ana unzip fuel max F (y_segs s) slots /\
    forall q, limits calc sim (field_few ana max F (added os)) (last_has ana max F slots) (field_ordered ana max F (added os)) (field_starts ana max F (added os)) (length slots) q -> calm false q = true ->
    exists n, forall fu, (n <= fu)%nat -> forall t, tir_used (reader_of (y_segs s)) t -> exists L t',
      (exists n2, forall fv, (n2 <= fv)%nat -> look calc sim srt (reader_of (y_segs s)) (rd_is_deleted (y_segs s)) (rd_max_doc (y_segs s)) (field_num (y_fis s)) fu fv q t = Some (L, t')) /\
      tir_used (reader_of (y_segs s)) t' /\ StronglySorted Z.lt L /\ forall d, In d L <-> exists k x, d = Z.of_nat k /\ nth_error slots k = Some (Some x) /\ sat sim (doc_has ana max F x) (doc_phrase ana max F x) q.
Proof.
  intros F max HQS H1 H2 H3 H4 H5 H6. destruct (after ana norm zip unzip fuel cfg buf0 fis m os H1 H2 H3 H4 H5 H6) as (s & ts & R1 & R2 & R3 & R4 & R5 & R6 & R7). pose proof H1 as (C1 & C2 & C3 & C4 & C5 & C6 & C7). exists s, (slots_of ts). rewrite R2, R7. fold F.
  splits; auto. { rewrite R5. eapply slots_live with (I := c_interval cfg) (kn := c_skip cfg); eauto. } { eapply answers_ok with (I := c_interval cfg) (kn := c_skip cfg); eauto. }
  exact (searched_at ana norm zip unzip fuel cfg buf0 fis os calc sim srt ts HQS H1 H2 R3 R4 R6).
Qed.

(* ---------- several searches *)
(* a query whose documents are found *)
Definition fine ana max F calc sim os slots (q : uq) : Prop := limits calc sim (field_few ana max F (added os)) (last_has ana max F slots) (field_ordered ana max F (added os)) (field_starts ana max F (added os)) (length slots) q /\ calm false q = true.
(* the numbers of the documents it asks for, in order *)
Definition asked ana max F sim slots (q : uq) (L : list Z) : Prop := StronglySorted Z.lt L /\ forall d, In d L <-> exists k x, d = Z.of_nat k /\ nth_error slots k = Some (Some x) /\ sat sim (doc_has ana max F x) (doc_phrase ana max F x) q.
Definition lookw calc sim srt (s : iw) fu fv q t := look calc sim srt (reader_of (y_segs s)) (rd_is_deleted (y_segs s)) (rd_max_doc (y_segs s)) (field_num (y_fis s)) fu fv q t.
Definition looksw calc sim srt (s : iw) fu fv qs t := looks calc sim srt (reader_of (y_segs s)) (rd_is_deleted (y_segs s)) (rd_max_doc (y_segs s)) (field_num (y_fis s)) fu fv qs t.
Lemma session calc sim srt s (ok : uq -> Prop) (want : uq -> list Z -> Prop) :
  (forall q, ok q -> exists n, forall fu, (n <= fu)%nat -> forall t, tir_used (reader_of (y_segs s)) t -> exists L t', (exists n2, forall fv, (n2 <= fv)%nat -> lookw calc sim srt s fu fv q t = Some (L, t')) /\ tir_used (reader_of (y_segs s)) t' /\ want q L) ->
  forall qs, Forall ok qs -> exists n, forall fu, (n <= fu)%nat -> forall t, tir_used (reader_of (y_segs s)) t -> exists Ls, (exists n2, forall fv, (n2 <= fv)%nat -> looksw calc sim srt s fu fv qs t = Some Ls) /\ Forall2 want qs Ls.
Proof.
  intros H qs HQ. induction HQ as [|q qs Hq HQ (n1 & IH)].
  - exists O. intros fu _ t U. exists []. split; [exists O; reflexivity|constructor].
  - destruct (H q Hq) as (n0 & H0). exists (Nat.max n0 n1). intros fu Hfu t U. destruct (H0 fu ltac:(lia) t U) as (L & t' & (m0 & E0) & U' & HL). destruct (IH fu ltac:(lia) t' U') as (Ls & (m1 & E1) & HLs).
    exists (L :: Ls). split; [|constructor; auto]. exists (Nat.max m0 m1). intros fv Hfv. unfold looksw. cbn [looks]. unfold lookw in E0. rewrite E0 by lia. cbn [obind fst snd]. unfold looksw in E1. rewrite E1 by lia. reflexivity.
Qed.
Theorem sessions_after ana norm zip unzip fuel cfg buf0 fis m os calc sim srt : let F := fis_of fis (added os) in let max := c_field_length cfg in
  qs_ok srt -> config_ok cfg buf0 (length (added os)) -> (3 <= c_skip cfg)%nat -> codec zip unzip -> log_fits ana max zip (c_interval cfg) F (added os) -> (1 <= m)%nat -> max_ok m None os ->
  exists s slots, iw_run ana norm zip (S fuel) cfg buf0 (iw_open fis [] m) os = Some s /\ somes slots = v_docs (view ana cfg fis m os) /\ answers ana unzip fuel max F (y_segs s) slots /\
    forall qs, Forall (fine ana max F calc sim os slots) qs -> exists n, forall fu, (n <= fu)%nat -> forall t, tir_used (reader_of (y_segs s)) t ->
      exists Ls, (exists n2, forall fv, (n2 <= fv)%nat -> looksw calc sim srt s fu fv qs t = Some Ls) /\ Forall2 (asked ana max F sim slots) qs Ls.
Proof.
  intros F max HQS H1 H2 H3 H4 H5 H6. destruct (searched_after ana norm zip unzip fuel cfg buf0 fis m os calc sim srt HQS H1 H2 H3 H4 H5 H6) as (s & slots & R1 & R2 & R3 & R4). exists s, slots. splits; auto.
  apply session. intros q (Q2 & Q3). destruct (R4 q Q2 Q3) as (n & Hn). exists n. intros fu Hfu t U. destruct (Hn fu Hfu t U) as (L & t' & E & U' & S1 & S2). exists L, t'. splits; auto. split; auto.
Qed.
Theorem sessions_committed ana norm zip unzip fuel cfg buf0 fis m os calc sim srt : let F := fis_of fis (added os) in let max := c_field_length cfg in
  qs_ok srt -> config_ok cfg buf0 (length (added os)) -> (3 <= c_skip cfg)%nat -> codec zip unzip -> log_fits ana max zip (c_interval cfg) F (added os) -> (1 <= m)%nat -> max_ok m None os ->
  exists s slots, iw_run ana norm zip (S fuel) cfg buf0 (iw_open fis [] m) (os ++ [WCommit]) = Some s /\ somes slots = log ana max F os /\ answers ana unzip fuel max F (y_segs s) slots /\
    forall qs, Forall (fine ana max F calc sim os slots) qs -> exists n, forall fu, (n <= fu)%nat -> forall t, tir_used (reader_of (y_segs s)) t ->
      exists Ls, (exists n2, forall fv, (n2 <= fv)%nat -> looksw calc sim srt s fu fv qs t = Some Ls) /\ Forall2 (asked ana max F sim slots) qs Ls.
Proof.
  intros F max HQS H1 H2 H3 H4 H5 H6. destruct (sessions_after ana norm zip unzip fuel cfg buf0 fis m (os ++ [WCommit]) calc sim srt) as (s & slots & R1 & R2 & R3 & R4); rewrite ?added_commit; auto using max_ok_commit.
  unfold fine in R4. rewrite added_commit in R3, R4. exists s, slots. splits; auto. rewrite R2. pose proof (view_is_log ana cfg fis m (os ++ [WCommit])) as G. rewrite (view_commit ana cfg fis m os WCommit), app_nil_r, log_commit, added_commit in G by auto. exact G.
Qed.
(* a set of numbers has one sorted list *)
Lemma sorted_same : forall a b : list Z, StronglySorted Z.lt a -> StronglySorted Z.lt b -> (forall d, In d a <-> In d b) -> a = b.
Proof.
  induction a as [|x a IH]; intros [|y b] Sa Sb H; [reflexivity|destruct (proj2 (H y) (or_introl eq_refl))|destruct (proj1 (H x) (or_introl eq_refl))|].
  apply StronglySorted_inv in Sa. apply StronglySorted_inv in Sb. destruct Sa as (Sa & Ha), Sb as (Sb & Hb). rewrite Forall_forall in Ha, Hb.
  assert (x = y). { destruct (proj1 (H x) (or_introl eq_refl)) as [E|E]; [auto|]. destruct (proj2 (H y) (or_introl eq_refl)) as [E2|E2]; [auto|]. specialize (Ha _ E2). specialize (Hb _ E). lia. }
  subst y. f_equal. apply IH; auto. intros d. split; intros G.
  - destruct (proj1 (H d) (or_intror G)) as [E|E]; [|exact E]. subst d. specialize (Ha _ G). lia.
  - destruct (proj2 (H d) (or_intror G)) as [E|E]; [|exact E]. subst d. specialize (Hb _ G). lia.
Qed.
Theorem again_after ana norm zip unzip fuel cfg buf0 fis m os calc sim srt : let F := fis_of fis (added os) in let max := c_field_length cfg in
  qs_ok srt -> config_ok cfg buf0 (length (added os)) -> (3 <= c_skip cfg)%nat -> codec zip unzip -> log_fits ana max zip (c_interval cfg) F (added os) -> (1 <= m)%nat -> max_ok m None os ->
  exists s slots, iw_run ana norm zip (S fuel) cfg buf0 (iw_open fis [] m) os = Some s /\ somes slots = v_docs (view ana cfg fis m os) /\ answers ana unzip fuel max F (y_segs s) slots /\
    forall q, fine ana max F calc sim os slots q -> exists n, forall fu, (n <= fu)%nat -> forall t, tir_used (reader_of (y_segs s)) t ->
      exists L, asked ana max F sim slots q L /\ exists n2, forall fv, (n2 <= fv)%nat -> looksw calc sim srt s fu fv [q; kept q; kept (kept q)] t = Some [L; L; L].
Proof.
  intros F max HQS H1 H2 H3 H4 H5 H6. destruct (sessions_after ana norm zip unzip fuel cfg buf0 fis m os calc sim srt HQS H1 H2 H3 H4 H5 H6) as (s & slots & R1 & R2 & R3 & R4). exists s, slots. splits; auto. intros q Hq.
  assert (HK : forall q, fine ana max F calc sim os slots q -> fine ana max F calc sim os slots (kept q)) by (intros x (Q2 & Q3); split; [apply kept_limits, Q2|rewrite kept_calm; exact Q3]).
  destruct (R4 [q; kept q; kept (kept q)]) as (n & Hn); [repeat (apply Forall_cons; [auto|]); apply Forall_nil|]. exists n. intros fu Hfu t U. destruct (Hn fu Hfu t U) as (Ls & E & HL).
  inversion HL as [|? L1 ? r1 A1 B1]; subst. inversion B1 as [|? L2 ? r2 A2 B2]; subst. inversion B2 as [|? L3 ? r3 A3 B3]; subst. inversion B3; subst. exists L1. split; [exact A1|].
  assert (E2 : L2 = L1). { destruct A1 as (S1 & I1), A2 as (S2 & I2). apply sorted_same; auto. intros d. rewrite I1, I2. split; intros (k & x & X1 & X2 & X3); exists k, x; splits; auto; apply (kept_sat sim (doc_has ana max F x) (doc_phrase ana max F x) q); exact X3. }
  assert (E3 : L3 = L1). { rewrite kept_kept in A3. destruct A1 as (S1 & I1), A3 as (S2 & I2). apply sorted_same; auto. intros d. rewrite I1, I2. split; intros (k & x & X1 & X2 & X3); exists k, x; splits; auto; apply (kept_sat sim (doc_has ana max F x) (doc_phrase ana max F x) q); exact X3. }
  subst L2 L3. exact E.
Qed.
(* without slop a phrase is at one place *)
Lemma doc_phrase_exact ana max F d f ps : doc_phrase ana max F d f 0 ps <-> doc_exact ana max F d f ps.
Proof.
  unfold doc_phrase, doc_exact. destruct (fis_get F f) as [[n i]|]; [|tauto]. rewrite <- (PhraseWindow_Proofs.pairs_window (fun (p : Z * list (list Z)) b => exists o, In o (occs_in ana max F n d) /\ In (o_text o) (snd p) /\ o_pos o = b + fst p) 0 ps) by (left; lia).
  split; intros (D & b & Hb); (split; [exact D|]); exists b; (eapply Forall_impl; [|exact Hb]); cbn beta; intros p H.
  - destruct H as (x & H & Hx). replace b with x by lia. exact H.
  - exists b. split; [exact H|lia].
Qed.
