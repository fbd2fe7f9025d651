From Coq Require Import Sorting.Permutation Sorting.Sorted.
From Verif Require Import Util Strcmp Dict_Model Dict_Spec Dict_Proofs DictCursor_Proofs Post_Model Post_Spec PostRun_Proofs PQueue_Model PQueue_Spec PQueue_Proofs Multi_Model Mte_Model Mte_Spec Mte_Proofs Mtde_Model Mtde_Spec Mtde_Proofs Expand_Model Expand_Spec Expand_Proofs Range_Model Range_Spec Range_Proofs Tsc_Model Tsc_Spec Tsc_Proofs TscMulti_Proofs TscOpen_Proofs Tpe_Model Tpe_Spec.
Open Scope Z_scope.

(* ---------- lists of postings *)
Lemma first_alive del l : match first_ok (fun d => negb (del d)) l with Some (p, t) => alive del l = p :: alive del t | None => alive del l = [] end.
Proof. unfold alive. induction l as [|p l IH]; cbn [first_ok filter]; [reflexivity|]. destruct (negb (del (fst p))) eqn:E; [reflexivity|exact IH]. Qed.
Lemma skip_alive del k l : match first_ok (fun d => negb (del d) && (k <=? d)) l with Some (p, t) => from k (alive del l) = p :: alive del t | None => from k (alive del l) = [] end.
Proof.
  unfold alive. induction l as [|p l IH]; cbn [first_ok filter]; [reflexivity|]. destruct (negb (del (fst p))) eqn:E; cbn [andb]; [|exact IH]. cbn [from]. destruct (Z.leb_spec k (fst p)), (Z.ltb_spec (fst p) k); try lia; [reflexivity|exact IH].
Qed.
Definition pinc (l : list post) : Prop := StronglySorted (fun x y : post => fst x < fst y) l.
Lemma pinc_tl x l : pinc (x :: l) -> pinc l /\ Forall (fun z : post => fst x < fst z) l.
Proof. intros H. inversion H; auto. Qed.
Lemma pinc_alive del l : pinc l -> pinc (alive del l).
Proof.
  unfold alive. induction l as [|x l IH]; intros H; cbn [filter]; [constructor|]. apply pinc_tl in H. destruct H as (H1 & H2). destruct (negb (del (fst x))); [|auto]. constructor; [apply IH; exact H1|]. rewrite Forall_forall in *. intros z Hz. apply filter_In in Hz. apply H2. tauto.
Qed.
Lemma pinc_from d l : pinc l -> pinc (from d l).
Proof. induction l as [|x l IH]; intros H; [exact H|]. cbn [from]. destruct (fst x <? d); [apply IH; apply pinc_tl in H; tauto|exact H]. Qed.
Lemma pfrom_ge d (l : list post) : pinc l -> Forall (fun x : post => d <= fst x) (from d l).
Proof.
  induction l as [|x l IH]; intros H; [constructor|]. cbn [from]. pose proof (pinc_tl _ _ H) as (H1 & H2). destruct (Z.ltb_spec (fst x) d); [auto|]. constructor; [lia|]. eapply Forall_impl; [|exact H2]. cbn. intros. lia.
Qed.
Lemma pfrom_in d (l : list post) x : pinc l -> (In x (from d l) <-> In x l /\ d <= fst x).
Proof.
  intros H. induction l as [|z l IH]; cbn [from In]; [tauto|]. pose proof (pinc_tl _ _ H) as (H1 & H2). destruct (Z.ltb_spec (fst z) d).
  - rewrite (IH H1). split; [tauto|]. intros ([->|G] & Hd); [lia|tauto].
  - cbn [In]. split; [|tauto]. intros [->|G]; [auto|]. split; [auto|]. rewrite Forall_forall in H2. specialize (H2 _ G). lia.
Qed.
Lemma places_from d k (l : list post) : pinc l -> k <= d -> places d (from k l) = places d l.
Proof.
  intros Hi Ht. unfold places. induction l as [|x l IH]; [reflexivity|]. cbn [from]. pose proof (pinc_tl _ _ Hi) as (H1 & _). destruct (Z.ltb_spec (fst x) k); [|reflexivity]. rewrite IH by exact H1. cbn [find]. destruct (Z.eqb_spec (fst x) d); [lia|reflexivity].
Qed.
Lemma places_gt d l : Forall (fun z : post => d < fst z) l -> places d l = [].
Proof. unfold places. induction 1 as [|z t Hz Ht IHt]; [reflexivity|]. cbn [find]. destruct (Z.eqb_spec (fst z) d); [lia|exact IHt]. Qed.
Lemma places_hd x l : places (fst x) (x :: l) = snd x.
Proof. unfold places. cbn [find]. rewrite Z.eqb_refl. reflexivity. Qed.
Lemma places_in d l x : pinc l -> In x (places d l) <-> exists p, In p l /\ fst p = d /\ In x (snd p).
Proof.
  intros H. unfold places. destruct (find _ l) as [p|] eqn:E.
  - apply find_some in E. destruct E as (E1 & E2). apply Z.eqb_eq in E2. split; [intros G; exists p; auto|]. intros (q & Q1 & Q2 & Q3). assert (q = p) as ->; [|exact Q3].
    clear -H E1 E2 Q1 Q2. induction l as [|z l IH]; [destruct E1|]. apply pinc_tl in H. destruct H as (H1 & H2). rewrite Forall_forall in H2. destruct E1 as [->|E1], Q1 as [->|Q1]; auto; [specialize (H2 _ Q1)|specialize (H2 _ E1)]; lia.
  - split; [intros []|]. intros (q & Q1 & Q2 & Q3). pose proof (find_none _ _ E q Q1) as G. cbn in G. lia.
Qed.

(* ---------- the alternatives as one list *)
Lemma alts_from ls L k : Forall pinc ls -> alts_of ls L -> alts_of (map (from k) ls) (from k L).
Proof.
  intros Hi (H1 & H2 & H3). rewrite Forall_forall in Hi. split; [apply pinc_from; exact H1|]. split.
  - intros d. rewrite in_map_iff. split.
    + intros (p & <- & Hp). apply pfrom_in in Hp; [|exact H1]. destruct Hp as (Hp & Hk). destruct (proj1 (H2 (fst p)) ltac:(apply in_map; exact Hp)) as (l & Hl & Hd). exists (from k l). split; [apply in_map; exact Hl|]. apply in_map_iff in Hd. destruct Hd as (q & Eq & Hq). apply in_map_iff. exists q. split; [exact Eq|]. apply pfrom_in; [auto|]. split; [exact Hq|lia].
    + intros (l & Hl & Hd). apply in_map_iff in Hl. destruct Hl as (l0 & <- & Hl). apply in_map_iff in Hd. destruct Hd as (q & <- & Hq). apply pfrom_in in Hq; [|auto]. destruct Hq as (Hq & Hk). specialize (H2 (fst q)). assert (In (fst q) (map fst L)) as GG by (apply H2; exists l0; split; [exact Hl|apply in_map; exact Hq]). apply in_map_iff in GG. destruct GG as (p & Ep & Hp). exists p. split; [exact Ep|]. apply pfrom_in; [exact H1|]. split; [exact Hp|lia].
  - apply Forall_forall. intros p Hp. apply pfrom_in in Hp; [|exact H1]. destruct Hp as (Hp & Hk). rewrite Forall_forall in H3. specialize (H3 p Hp). destruct H3 as (H3 & H4). split; [|exact H4]. assert (E : flat_map (places (fst p)) (map (from k) ls) = flat_map (places (fst p)) ls); [|rewrite E; exact H3].
    clear -Hi Hk. induction ls as [|l ls IH]; [reflexivity|]. cbn [map flat_map]. rewrite places_from, IH; auto; [intros x Hx; apply Hi; right; exact Hx|apply Hi; left; reflexivity].
Qed.
Lemma alts_nil ls : alts_of ls [] -> Forall (fun l => l = []) ls.
Proof. intros (_ & H & _). apply Forall_forall. intros l Hl. destruct l as [|x l]; [reflexivity|]. exfalso. apply (H (fst x)). exists (x :: l). split; [exact Hl|left; reflexivity]. Qed.
Lemma alts_cons ls p L : Forall pinc ls -> alts_of ls (p :: L) ->
  Permutation (flat_map (places (fst p)) ls) (snd p) /\ StronglySorted Z.le (snd p) /\ Forall (fun l : list post => match l with [] => True | x :: _ => fst p <= fst x end) ls /\ (exists x t, In (x :: t) ls /\ fst x = fst p) /\ alts_of (map (from (fst p + 1)) ls) L.
Proof.
  intros Hi HA. pose proof HA as (H1 & H2 & H3). pose proof (pinc_tl _ _ H1) as (H1' & Hgt). inversion H3 as [|? ? (P1 & P2) H3']; subst.
  assert (HL : Forall (fun l : list post => match l with [] => True | x :: _ => fst p <= fst x end) ls).
  { apply Forall_forall. intros l Hl. destruct l as [|x l]; [exact Logic.I|]. destruct (proj2 (H2 (fst x))) as [E|E]; [exists (x :: l); split; [exact Hl|left; reflexivity]|lia|]. apply in_map_iff in E. destruct E as (q & <- & Hq). rewrite Forall_forall in Hgt. specialize (Hgt _ Hq). lia. }
  splits; auto.
  - destruct (proj1 (H2 (fst p)) (or_introl eq_refl)) as (l & Hl & Hd). apply in_map_iff in Hd. destruct Hd as (q & Eq & Hq). rewrite Forall_forall in HL, Hi. specialize (HL l Hl). specialize (Hi l Hl). destruct l as [|x l]; [destruct Hq|]. exists x, l. split; [exact Hl|]. destruct Hq as [->|Hq]; [exact Eq|]. apply pinc_tl in Hi. destruct Hi as (_ & Hi). rewrite Forall_forall in Hi. specialize (Hi q Hq). lia.
  - assert (Em : L = from (fst p + 1) (p :: L)).
    { cbn [from fst]. destruct (Z.ltb_spec (fst p) (fst p + 1)); [|lia]. destruct L as [|z L]; [reflexivity|]. cbn [from]. rewrite Forall_forall in Hgt. specialize (Hgt z (or_introl eq_refl)). destruct (Z.ltb_spec (fst z) (fst p + 1)); [lia|reflexivity]. }
    rewrite Em. apply alts_from; assumption.
Qed.
(* sorting integers *)
Lemma zins_perm a l : Permutation (a :: l) (zins a l).
Proof. induction l as [|b l IH]; cbn [zins]; [reflexivity|]. destruct (a <=? b); [reflexivity|]. rewrite perm_swap. constructor. exact IH. Qed.
Lemma zsort_perm l : Permutation l (zsort l).
Proof. induction l as [|a l IH]; [constructor|]. change (zsort (a :: l)) with (zins a (zsort l)). rewrite IH at 1. apply zins_perm. Qed.
Lemma zsort_sorted l : StronglySorted Z.le (zsort l).
Proof.
  induction l as [|a l IH]; [constructor|]. change (zsort (a :: l)) with (zins a (zsort l)). induction IH as [|b m HS IH HF]; cbn [zins]; [repeat constructor|]. destruct (Z.leb_spec a b).
  - constructor; [constructor; assumption|]. constructor; [assumption|]. eapply Forall_impl; [|exact HF]. cbn. lia.
  - constructor; [exact IH|]. apply (Permutation_Forall (zins_perm a m)). constructor; [lia|exact HF].
Qed.
Lemma sorted_unique l : forall l', StronglySorted Z.le l -> StronglySorted Z.le l' -> Permutation l l' -> l = l'.
Proof.
  induction l as [|a l IH]; intros l' H H' HP; [apply Permutation_nil in HP; auto|]. destruct l' as [|b l']; [apply Permutation_sym, Permutation_nil in HP; discriminate|]. inversion H as [|? ? S1 F1]; inversion H' as [|? ? S2 F2]; subst. rewrite Forall_forall in F1, F2.
  assert (a = b). { assert (In a (b :: l')) as [G|G] by (eapply Permutation_in; [exact HP|left; reflexivity]); auto. assert (In b (a :: l)) as [G'|G'] by (eapply Permutation_in; [apply Permutation_sym; exact HP|left; reflexivity]); auto. specialize (F1 _ G'). specialize (F2 _ G). lia. }
  subst b. f_equal. apply IH; auto. eapply Permutation_cons_inv; exact HP.
Qed.
(* there is such a list *)
Fixpoint dins (d : Z) (l : list Z) : list Z := match l with [] => [d] | x :: t => if d <? x then d :: l else if d =? x then l else x :: dins d t end.
Lemma dins_in d l x : In x (dins d l) <-> x = d \/ In x l.
Proof. induction l as [|a l IH]; cbn [dins In]; [intuition|]. destruct (d <? a); [cbn [In]; intuition|]. destruct (Z.eqb_spec d a); [subst; cbn [In]; intuition|]. cbn [In]. rewrite IH. intuition. Qed.
Lemma dins_sorted d l : StronglySorted Z.lt l -> StronglySorted Z.lt (dins d l).
Proof.
  induction 1 as [|a l HS IH HF]; cbn [dins]; [repeat constructor|]. destruct (Z.ltb_spec d a); [constructor; [constructor; assumption|]; constructor; [assumption|]; eapply Forall_impl; [|exact HF]; cbn; lia|]. destruct (Z.eqb_spec d a); [constructor; assumption|]. constructor; [exact IH|]. apply Forall_forall. intros x Hx. apply dins_in in Hx. rewrite Forall_forall in HF. destruct Hx as [->|Hx]; [lia|auto].
Qed.
Lemma alts_exists ls : exists L, alts_of ls L.
Proof.
  set (ds := fold_right dins [] (flat_map (map fst) ls)). exists (map (fun d => (d, zsort (flat_map (places d) ls))) ds).
  assert (HS : StronglySorted Z.lt ds) by (subst ds; induction (flat_map (map fst) ls) as [|d l IH]; cbn [fold_right]; [constructor|apply dins_sorted; exact IH]).
  assert (HI : forall d, In d ds <-> In d (flat_map (map fst) ls)) by (clear HS; subst ds; intros d; induction (flat_map (map fst) ls) as [|x l IH]; cbn [fold_right In]; [tauto|rewrite dins_in, IH; split; intros [G|G]; auto]).
  split; [|split].
  - clear HI. induction HS as [|d l HS IH HF]; cbn [map]; constructor; auto. apply Forall_forall. intros z Hz. apply in_map_iff in Hz. destruct Hz as (x & <- & Hx). rewrite Forall_forall in HF. cbn. auto.
  - intros d. rewrite map_map. cbn [fst]. rewrite map_id, HI, in_flat_map. reflexivity.
  - apply Forall_forall. intros z Hz. apply in_map_iff in Hz. destruct Hz as (x & <- & Hx). cbn [fst snd]. split; [apply zsort_perm|apply zsort_sorted].
Qed.

(* ---------- enumerators of a term, with positions *)
Definition DP (i : pidx) (r : prdr) (y : idx) (de : penum) (L : list post) (rem : list Z) : Prop :=
  match i, r, y, de with
  | PIOne v, POne g, IOne x, DOne e => rel (v_kn v) true (fst g) e (L, rem)
  | PIMany mp vs, PMany _ gs _, IMany _ xs, DMany m => exists C, RI mp vs gs xs true m C L rem
  | _, _, _, _ => False end.
Section TP.
  Variables (i : pidx) (r : prdr) (y : idx) (del : Z -> bool).
  Hypothesis HD : dicts i r y.
  (* the enumerator has the documents L to come and, in the current one, the positions rem *)
  Definition LV (de : penum) (L : list post) (rem : list Z) : Prop := exists P, DP i r y de P rem /\ L = alive del P.
  Definition met (L : list post) (z : option (Z * Z)) (de : penum) : Prop := match L with [] => z = None /\ LV de [] [] | p :: t => z = Some (fst p, freq p) /\ LV de t (snd p) end.
  Lemma lv_next de L rem : LV de L rem -> exists z de', tp_next r del de = Some (z, de') /\ met L z de'.
  Proof.
    intros (P & HP & ->). pose proof (first_alive del P) as HA. pose proof HD as H. unfold tp_next, met, LV. destruct i as [v|mp vs], r as [g|mp' gs st], y as [x|mp2 xs], de as [e|m]; cbn [DP dicts] in *; try tauto.
    - pose proof (z_ok _ _ _ H) as (_ & _ & Hk & _). destruct (sub_next (v_kn v) true (fst g) (snd g) Hk (z_skip _ _ _ H) del e (P, rem) HP) as (b & e' & E & HN). rewrite E. cbn [obind fst snd] in *. eexists _, _. split; [reflexivity|]. cbn [DP].
      destruct (first_ok _ P) as [[p t]|]; rewrite HA; [destruct HN as (-> & -> & -> & HR)|destruct HN as (-> & HR)]; split; auto; eexists; split; try exact HR; reflexivity.
    - destruct H as (-> & -> & -> & Hl & HF & H0). destruct HP as (C & HR). destruct (fuel_next mp vs gs xs true Hl m C P rem HR) as (_ & Hfu & _). destruct (next_ok2 mp vs gs xs true Hl HF del _ m C P rem Hfu HR) as (z & m' & E & HS). rewrite E. cbn [obind fst snd]. eexists _, _. split; [reflexivity|]. cbn [DP]. unfold stepped in HS.
      destruct (first_ok _ P) as [[p t]|]; rewrite HA; destruct HS as (-> & C' & HR'); split; auto; eexists; (split; [exists C'; exact HR'|reflexivity]).
  Qed.
  Lemma lv_skip k de L rem : LV de L rem -> exists z de', tp_skip r del k de = Some (z, de') /\ met (from k L) z de'.
  Proof.
    intros (P & HP & ->). pose proof (skip_alive del k P) as HA. pose proof HD as H. unfold tp_skip, met, LV. destruct i as [v|mp vs], r as [g|mp' gs st], y as [x|mp2 xs], de as [e|m]; cbn [DP dicts] in *; try tauto.
    - pose proof (z_ok _ _ _ H) as (_ & _ & Hk & _). destruct (sub_skip (v_kn v) true (fst g) (snd g) Hk (z_skip _ _ _ H) del k e (P, rem) HP) as (b & e' & E & HN). rewrite E. cbn [obind fst snd] in *. eexists _, _. split; [reflexivity|]. cbn [DP].
      destruct (first_ok _ P) as [[p t]|]; rewrite HA; [destruct HN as (-> & -> & -> & HR)|destruct HN as (-> & HR)]; split; auto; eexists; split; try exact HR; reflexivity.
    - destruct H as (-> & -> & -> & Hl & HF & H0). destruct HP as (C & HR). destruct (fuel_next mp vs gs xs true Hl m C P rem HR) as (Hfu & _ & _). destruct (skip_ok2 mp vs gs xs true Hl HF del k _ m C P rem HR Hfu) as (z & m' & E & HS). rewrite E. cbn [obind fst snd]. eexists _, _. split; [reflexivity|]. cbn [DP]. unfold stepped in HS.
      destruct (first_ok _ P) as [[p t]|]; rewrite HA; destruct HS as (-> & C' & HR'); split; auto; eexists; (split; [exists C'; exact HR'|reflexivity]).
  Qed.
  Lemma lv_pos de L a rem : LV de L (a :: rem) -> exists de', tp_pos r de = Some (a, de') /\ LV de' L rem.
  Proof.
    intros (P & HP & ->). pose proof HD as H. unfold tp_pos, LV. destruct i as [v|mp vs], r as [g|mp' gs st], y as [x|mp2 xs], de as [e|m]; cbn [DP dicts] in *; try tauto.
    - pose proof (z_ok _ _ _ H) as (_ & _ & Hk & _). destruct (sub_pos (v_kn v) true (fst g) (snd g) Hk (z_skip _ _ _ H) e (P, a :: rem) a rem eq_refl HP eq_refl) as (e' & E & HR). rewrite E. cbn [obind fst snd] in *. eexists. split; [reflexivity|]. exists P. cbn [DP]. auto.
    - destruct H as (-> & -> & -> & Hl & HF & H0). destruct HP as (C & HR). destruct (pos_ok2 mp vs gs xs true Hl HF m C P _ a rem eq_refl HR eq_refl) as (m' & C' & E & HR'). rewrite E. cbn [obind fst snd]. eexists. split; [reflexivity|]. exists P. cbn [DP]. eauto.
  Qed.
  Lemma lv_take ps : forall de L, LV de L ps -> exists de', take_pos r (length ps) de = Some (ps, de') /\ LV de' L [].
  Proof.
    induction ps as [|a ps IH]; intros de L H; cbn [take_pos length]; [exists de; auto|]. destruct (lv_pos _ _ _ _ H) as (e1 & E1 & H1). rewrite E1. cbn [obind fst snd]. destruct (IH _ _ H1) as (e2 & E2 & H2). rewrite E2. cbn [obind fst snd]. exists e2. auto.
  Qed.
  Lemma lv_open t f x : tir_used r t -> pidx_field i f -> exists de t', tp_open r t f x = Some (de, t') /\ tir_used r t' /\ LV de (alive del (plook i f x)) [].
  Proof.
    intros U Hf. pose proof HD as H. unfold tp_open, LV. destruct i as [v|mp vs], r as [g|mp' gs st], y as [z|mp2 xs]; cbn [DP dicts term_docs] in *; try tauto.
    - cbn [obind]. pose proof (used_good v g z t H U) as G. destruct (good_tir_step (v_kn v) (fst g) (g_fs z) (snd g) t f x G) as (res & t' & E & HT & _). rewrite E. cbn [obind fst snd]. eexists _, t'. split; [reflexivity|]. split; [eapply U_look; [reflexivity|exact U|exact E]|].
      exists (plook (PIOne v) f x). split; [|reflexivity]. cbn [DP]. pose proof (z_ok _ _ _ H) as (_ & _ & Hk & _ & Hinv & _). rewrite (z_skip _ _ _ H).
      eapply seek_rel; [lia|apply (rel_new [] [] true eq_refl)|]. eapply found_ok; [exact Hinv|exact (z_laid _ _ _ H)|exact HT].
    - destruct H as (-> & -> & -> & Hl & HF & H0). destruct (new_ok3 mp vs gs xs true Hl HF H0) as (m & E & HR & Hfr & Hcu). rewrite E. cbn [obind]. cbn [pidx_field] in Hf. rewrite Hl in Hf.
      assert (Hfs : field_in mp (length (map dict_of gs)) f) by (rewrite map_length; exact Hf).
      destruct (seek_ok mp vs gs xs true Hl HF f x Hfs m _ [] [] HR Hfr (or_intror eq_refl) (fun _ => Hcu)) as (m' & C' & E2 & HR'). rewrite E2. cbn [obind]. eexists _, t. split; [reflexivity|]. split; [exact U|]. exists (look mp vs f x). split; [|reflexivity]. cbn [DP]. eauto.
  Qed.
End TP.
