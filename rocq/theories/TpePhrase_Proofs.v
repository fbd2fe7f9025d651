(* From the postings of an index to the documents with a phrase. *)
From Coq Require Import Sorting.Permutation Sorting.Sorted.
From Verif Require Import Util Strcmp Post_Model Post_Spec Post_Proofs PQueue_Model Multi_Model Mte_Model Mtde_Model Mtde_Spec Mtde_Proofs Expand_Model Expand_Spec Range_Model Range_Spec Range_Proofs Tsc_Model Tsc_Spec Tpe_Model Tpe_Spec Tpe_Proofs TpeAlts_Proofs Phrase_Model Phrase_Spec Phrase_Proofs PhraseWindow_Proofs TpeSim_Proofs.
Open Scope Z_scope.
Local Notation post := Post_Model.post.

(* ---------- more fuel gives the same *)
Section FUEL.
  Variables (r : prdr) (del : Z -> bool) (qs : list (list Z) -> list nat).
  Lemma catch_more k : forall p x z, c_catch_up r k p x = Some z -> c_catch_up r (S k) p x = Some z.
  Proof.
    induction k as [|k IH]; intros p x z E; [discriminate|]. remember (S k) as k1. cbn [c_catch_up]. subst k1. cbn [c_catch_up] in E. destruct (cpp_next_position r p) as [(b & p1)|]; cbn [obind fst snd] in *; [|discriminate]. destruct b; [|exact E]. destruct (c_pos p1 <? x); [|exact E]. apply IH. exact E.
  Qed.
  Lemma scan_more k : forall fr idx li l z, c_scan r k fr idx li l = Some z -> c_scan r (S k) fr idx li l = Some z.
  Proof.
    induction k as [|k IH]; intros fr idx li l z E; [discriminate|]. remember (S k) as k1. cbn [c_scan]. subst k1. cbn [c_scan] in E. destruct (nth_error l idx) as [a|]; cbn [obind] in *; [|discriminate]. destruct (nth_error l li) as [b|]; cbn [obind] in *; [|discriminate]. cbv zeta in *. destruct (c_pos a <? c_pos b).
    - destruct (c_catch_up r k a (c_pos b)) as [(w & a1)|] eqn:E1; cbn [obind fst snd] in *; [|discriminate]. rewrite (catch_more _ _ _ _ E1). cbn [obind fst snd]. destruct w; [|exact E]. apply IH. exact E.
    - destruct (cpp_next_position r b) as [(w & b1)|]; cbn [obind fst snd] in *; [|discriminate]. destruct w; [|exact E]. apply IH. exact E.
  Qed.
  Lemma freq_more k l z : c_phrase_freq r qs k l = Some z -> c_phrase_freq r qs (S k) l = Some z.
  Proof. unfold c_phrase_freq. destruct (c_first_all r l) as [l1|]; cbn [obind]; [|discriminate]. cbv zeta. apply scan_more. Qed.
  Lemma check_more m : forall k j n l z, c_check_repeats r m k j n l = Some z -> c_check_repeats r (S m) k j n l = Some z.
  Proof.
    induction m as [|m IH]; intros k j n l z E; [discriminate|]. remember (S m) as m1. cbn [c_check_repeats]. subst m1. cbn [c_check_repeats] in E. destruct (j <? n)%nat; [|exact E]. destruct (nth_error l j) as [a|]; cbn [obind] in *; [|discriminate]. destruct (nth_error l k) as [b|]; cbn [obind] in *; [|discriminate]. cbv zeta in *.
    destruct (c_off a =? c_off b); [apply IH; exact E|]. destruct (c_pos a + c_off a =? c_pos b + c_off b); [|apply IH; exact E]. destruct (cpp_next_position r b) as [(w & b1)|]; cbn [obind fst snd] in *; [|discriminate]. destruct w; [|exact E]. apply IH. exact E.
  Qed.
  Lemma sfirst_more m chk n : forall k l q lp z, c_sloppy_first r m chk k n l q lp = Some z -> c_sloppy_first r (S m) chk k n l q lp = Some z.
  Proof.
    induction n as [|n IH]; intros k l q lp z E; [exact E|]. remember (S m) as m1. cbn [c_sloppy_first] in *. destruct (nth_error l k) as [a|]; cbn [obind] in *; [|discriminate]. destruct (cpp_first_position r a) as [(w & a1)|]; cbn [obind fst snd] in *; [|discriminate]. destruct w; [|exact E]. cbv zeta in *. destruct (chk && (0 <? k)%nat).
    - destruct (c_check_repeats r m k 0 (k - 1) (upd l k a1)) as [(w & l1)|] eqn:E1; cbn [obind fst snd] in *; [|discriminate]. subst m1. rewrite (check_more _ _ _ _ _ _ E1). cbn [obind fst snd]. destruct w; [|exact E]. destruct (nth_error l1 k) as [a2|]; cbn [obind] in *; [|discriminate]. destruct (pq_push nat (cpp_less l1) q k); cbn [obind] in *; [|discriminate]. apply IH. exact E.
    - cbn [obind fst snd] in *. destruct (nth_error (upd l k a1) k) as [a2|]; cbn [obind] in *; [|discriminate]. destruct (pq_push nat (cpp_less (upd l k a1)) q k); cbn [obind] in *; [|discriminate]. subst m1. apply IH. exact E.
  Qed.
  Lemma window_more m chk : forall k np pos st l z, c_window r m chk k np pos st l = Some z -> c_window r (S m) chk k np pos st l = Some z.
  Proof.
    induction m as [|m IH]; intros k np pos st l z E; [discriminate|]. remember (S m) as m1. cbn [c_window]. subst m1. cbn [c_window] in E. destruct (pos <=? np); [|exact E]. destruct (nth_error l k) as [a|]; cbn [obind] in *; [|discriminate]. destruct (cpp_next_position r a) as [(w & a1)|]; cbn [obind fst snd] in *; [|discriminate]. cbv zeta in *. destruct w; [|exact E]. destruct chk.
    - destruct (c_check_repeats r m k 0 (length l) (upd l k a1)) as [(w & l1)|] eqn:E1; cbn [obind fst snd] in *; [|discriminate]. rewrite (check_more _ _ _ _ _ _ E1). cbn [obind fst snd]. destruct w; [|exact E]. destruct (nth_error l1 k) as [a2|]; cbn [obind] in *; [|discriminate]. apply IH. exact E.
    - cbn [obind fst snd] in *. destruct (nth_error (upd l k a1) k) as [a2|]; cbn [obind] in *; [|discriminate]. apply IH. exact E.
  Qed.
  Lemma loop_more m chk slop : forall lp lens l q z, c_sloppy_loop r m chk slop lp lens l q = Some z -> c_sloppy_loop r (S m) chk slop lp lens l q = Some z.
  Proof.
    induction m as [|m IH]; intros lp lens l q z E; [discriminate|]. remember (S m) as m1. cbn [c_sloppy_loop]. subst m1. cbn [c_sloppy_loop] in E. destruct (pq_pop nat (cpp_less l) q) as [(k0 & q1)|]; cbn [obind fst snd] in *; [|discriminate]. destruct k0 as [k|]; cbn [obind] in *; [|discriminate]. destruct (nth_error l k) as [a|]; cbn [obind] in *; [|discriminate].
    match type of E with context [obind ?z _] => match z with obind (pq_top nat q1) _ => destruct z as [t|]; cbn [obind] in *; [|discriminate] end end. destruct (nth_error l t) as [b|]; cbn [obind] in *; [|discriminate].
    destruct (c_window r m chk k (c_pos b) (c_pos a) (c_pos a) l) as [((dn & st) & l1)|] eqn:E1; cbn [obind] in *; [|discriminate]. rewrite (window_more _ _ _ _ _ _ _ _ E1). cbn [obind]. cbv zeta in *. destruct (nth_error l1 k) as [a3|]; cbn [obind] in *; [|discriminate]. destruct (pq_push nat (cpp_less l1) q1 k) as [q2|]; cbn [obind] in *; [|discriminate]. destruct dn; [exact E|]. apply IH. exact E.
  Qed.
  Lemma pf_more slop chk k idx l z : c_freq_of r qs slop chk k idx l = Some z -> c_freq_of r qs slop chk (S k) idx l = Some z.
  Proof.
    unfold c_freq_of. destruct (slop =? 0); [apply freq_more|]. unfold c_matches. intros E. destruct (c_sloppy_first r k chk 0 (length l) l (pq_new nat (length l)) 0) as [(w & l1)|] eqn:E1; cbn [obind fst snd] in *; [|discriminate]. rewrite (sfirst_more _ _ _ _ _ _ _ _ E1). cbn [obind fst snd]. destruct w as [(q & lp)|]; [|exact E]. destruct (c_sloppy_loop r k chk slop lp [] l1 q) as [w|] eqn:E2; cbn [obind] in *; [|discriminate]. rewrite (loop_more _ _ _ _ _ _ _ _ E2). exact E.
  Qed.
  Variables (slop : Z) (chk : bool).
  Lemma do_next_more k : forall fr doc hi more idx li l z, c_do_next r del qs slop chk k fr doc hi more idx li l = Some z -> c_do_next r del qs slop chk (S k) fr doc hi more idx li l = Some z.
  Proof.
    induction k as [|k IH]; intros fr doc hi more idx li l z E; [discriminate|]. remember (S k) as k1. cbn [c_do_next]. subst k1. cbn [c_do_next] in E. destruct more; [|exact E]. destruct (nth_error l idx) as [a|]; cbn [obind] in *; [|discriminate]. destruct (nth_error l li) as [b|]; cbn [obind] in *; [|discriminate]. destruct (c_doc a <? c_doc b).
    - destruct (cpp_move r del (Some (c_doc b)) a) as [(w & a1)|]; cbn [obind fst snd] in *; [|discriminate]. apply IH. exact E.
    - destruct (c_freq_of r qs slop chk k idx l) as [((f1 & i1) & l1)|] eqn:E1; cbn [obind] in *; [|discriminate]. rewrite (pf_more _ _ _ _ _ _ E1). cbn [obind]. cbv zeta in *. destruct (f1 =? 0); [|exact E]. destruct (nth_error l1 _) as [c|]; cbn [obind] in *; [|discriminate]. destruct (cpp_move r del None c) as [(w & c1)|]; cbn [obind fst snd] in *; [|discriminate]. apply IH. exact E.
  Qed.
End FUEL.
Section FUEL2.
  Variables (r : prdr) (del : Z -> bool) (qs : list (list Z) -> list nat).
  Lemma run_more k op s z : csc_run r del qs k op s = Some z -> csc_run r del qs (S k) op s = Some z.
  Proof.
    unfold csc_run, c_start. intros E. destruct op as [d|].
    - destruct (c_move_all r del (Some d) (s_pos s)) as [(w & l)|]; cbn [obind fst snd] in *; [|discriminate]. match type of E with context [c_do_next ?a1 ?a2 ?a3 ?a4 ?a5 k ?b1 ?b2 ?b3 ?b4 ?b5 ?b6 ?b7] => destruct (c_do_next a1 a2 a3 a4 a5 k b1 b2 b3 b4 b5 b6 b7) as [(w2 & s2)|] eqn:E2; cbn [obind] in E; [|discriminate]; rewrite (do_next_more _ _ _ _ _ _ _ _ _ _ _ _ _ _ E2) end. exact E.
    - destruct (s_first s).
      + destruct (c_move_all r del None (s_pos s)) as [(w & l)|]; cbn [obind fst snd] in *; [|discriminate]. apply do_next_more. exact E.
      + destruct (s_more s); [|apply do_next_more; exact E]. cbv zeta in *. destruct (nth_error (s_pos s) _) as [c|]; cbn [obind] in *; [|discriminate]. destruct (cpp_move r del None c) as [(w & c1)|]; cbn [obind fst snd] in *; [|discriminate]. apply do_next_more. exact E.
  Qed.
  Lemma run_le k m op s z : (k <= m)%nat -> csc_run r del qs k op s = Some z -> csc_run r del qs m op s = Some z.
  Proof. induction 1; auto using run_more. Qed.
End FUEL2.

(* ---------- the postings *)
Lemma plook_pinc i r f t : pidx_open i r -> pinc (plook i f t) /\ Forall (fun p : post => 0 <= fst p) (plook i f t).
Proof.
  intros HO. destruct i as [v|mp vs], r as [g|mp' gs st]; cbn [pidx_open] in HO; try tauto; cbn [plook].
  - destruct HO as ((_ & _ & _ & _ & Hinv & _) & _). destruct (postings_ok (v_fs v) f t Hinv) as (H1 & H2 & _). split; [exact H2|]. eapply Forall_impl; [|exact H1]. intros p (Hp & _). lia.
  - destruct HO as (_ & _ & HF & _). apply (joined_sorted mp f t vs O 0 HF).
Qed.
Lemma alive_in del l x : In x (alive del l) <-> In x l /\ del (fst x) = false.
Proof. unfold alive. rewrite filter_In. destruct (del (fst x)); cbn; intuition congruence. Qed.
Lemma pinc_map l : pinc l -> StronglySorted Z.lt (map fst l).
Proof. unfold pinc. induction 1 as [|x l HS IH HF]; cbn [map]; constructor; auto. apply Forall_forall. intros z Hz. apply in_map_iff in Hz. destruct Hz as (q & <- & Hq). rewrite Forall_forall in HF. auto. Qed.
Section POS.
  Variables (i : pidx) (r : prdr) (del : Z -> bool) (f : Z).
  Hypothesis HO : pidx_open i r.
  Lemma pos_list_in ts L d z : pos_list i del f ts L -> (exists l, In (d, l) L /\ In z l) <-> del d = false /\ exists t x, In t ts /\ In x (plook i f t) /\ fst x = d /\ In z (snd x).
  Proof.
    intros HL. assert (G : (exists t, ts = [t] /\ L = alive del (plook i f t)) \/ alts_of (map (fun x => alive del (plook i f x)) ts) L) by (destruct ts as [|t [|t2 ts]]; cbn [pos_list] in HL; [right; exact HL|left; eauto|right; exact HL]). clear HL.
    destruct G as [(t & -> & ->)|(HS & HD & HF)].
    - split.
      + intros (l & Hl & Hz). apply alive_in in Hl. destruct Hl as (Hl & Hd). split; [exact Hd|]. exists t, (d, l). splits; auto. left. reflexivity.
      + intros (Hd & t1 & (d1 & l) & [<-|[]] & Hx & Hfx & Hz). cbn in Hfx, Hz. subst d1. exists l. split; [|exact Hz]. apply alive_in. auto.
    - split.
      + intros (l & Hl & Hz). rewrite Forall_forall in HF. destruct (HF _ Hl) as (HP & _). cbn [fst snd] in HP. apply (Permutation_in _ (Permutation_sym HP)) in Hz. apply in_flat_map in Hz. destruct Hz as (l1 & Hl1 & Hz). apply in_map_iff in Hl1. destruct Hl1 as (t & <- & Ht). apply places_in in Hz; [|apply pinc_alive; apply (plook_pinc i r f t HO)]. destruct Hz as (p & Hp & <- & Hz). apply alive_in in Hp. destruct Hp as (Hp & Hd). split; [exact Hd|]. exists t, p. auto.
      + intros (Hd & t & x & Ht & Hx & <- & Hz). assert (HA : In x (alive del (plook i f t))) by (apply alive_in; auto). assert (HM : In (fst x) (map fst L)) by (apply HD; exists (alive del (plook i f t)); split; [apply in_map_iff; eauto|apply in_map; exact HA]). apply in_map_iff in HM. destruct HM as ((d1 & l) & Ed & Hp). cbn in Ed. subst d1. exists l. split; [exact Hp|]. rewrite Forall_forall in HF. destruct (HF _ Hp) as (HP & _). cbn [fst snd] in HP. apply (Permutation_in _ HP). apply in_flat_map. exists (alive del (plook i f t)). split; [apply in_map_iff; eauto|]. apply places_in; [apply pinc_alive; apply (plook_pinc i r f t HO)|]. eauto.
  Qed.
  Lemma pos_list_good ts L : in_order i f ts -> pos_list i del f ts L -> StronglySorted Z.lt (map fst L) /\ Forall (fun e : Z * list Z => 0 <= fst e < INT_MAX /\ snd e <> [] /\ StronglySorted Z.le (snd e)) L.
  Proof.
    intros HI HL. assert (G : (exists t, ts = [t] /\ L = alive del (plook i f t)) \/ alts_of (map (fun x => alive del (plook i f x)) ts) L) by (destruct ts as [|t [|t2 ts]]; cbn [pos_list] in HL; [right; exact HL|left; eauto|right; exact HL]). clear HL.
    destruct G as [(t & -> & ->)|(HS & HD & HF)].
    - destruct (plook_pinc i r f t HO) as (H1 & H2). split; [apply pinc_map; apply pinc_alive; exact H1|]. apply Forall_forall. intros x Hx. apply alive_in in Hx. destruct Hx as (Hx & _). rewrite Forall_forall in H2. specialize (H2 x Hx). destruct (HI t x (or_introl eq_refl) Hx) as (A & B & C). change INT_MAX with C_INT_MAX. splits; auto.
    - split; [apply pinc_map; exact HS|]. rewrite Forall_forall in HF |- *. intros p Hp. destruct (HF p Hp) as (HP & HZ). assert (HM : In (fst p) (map fst L)) by (apply in_map; exact Hp). apply HD in HM. destruct HM as (l & Hl & Hd). apply in_map_iff in Hl. destruct Hl as (t & <- & Ht). apply in_map_iff in Hd. destruct Hd as (x & Ex & Hx). pose proof Hx as Hx'. apply alive_in in Hx'. destruct Hx' as (Hx' & Hdel).
      destruct (plook_pinc i r f t HO) as (H1 & H2). rewrite Forall_forall in H2. specialize (H2 x Hx'). destruct (HI t x Ht Hx') as (A & B & C). rewrite <- Ex. change INT_MAX with C_INT_MAX. splits; auto.
      destruct (snd x) as [|z zs] eqn:Es; [congruence|]. assert (HZi : In z (flat_map (places (fst p)) (map (fun x => alive del (plook i f x)) ts))) by (apply in_flat_map; exists (alive del (plook i f t)); split; [apply in_map_iff; eauto|]; apply places_in; [apply pinc_alive; exact H1|]; exists x; rewrite Es; splits; auto; left; reflexivity).
      apply (Permutation_in _ HP) in HZi. intros E0. rewrite E0 in HZi. destruct HZi.
  Qed.
  Variables (ps : list (Z * list (list Z))) (ph : list (Z * list (Z * list Z))).
  Hypothesis HP : Forall2 (fun p (x : Z * list (Z * list Z)) => fst x = fst p /\ pos_list i del f (snd p) (snd x)) ps ph.
  Lemma ph_ok : ps <> [] -> in_order i f (flat_map snd ps) -> phrase_ok ph.
  Proof.
    intros Hne HI. split; [destruct HP; congruence|]. clear Hne. induction HP as [|p x ps1 ph1 (_ & H1) H2 IH]; [constructor|]. constructor.
    - apply (pos_list_good (snd p)); [|exact H1]. intros t z Ht. apply HI. cbn [flat_map]. apply in_or_app. left. exact Ht.
    - apply (IH H2). intros t z Ht. apply HI. cbn [flat_map]. apply in_or_app. right. exact Ht.
  Qed.
  Lemma ph_at d b : ps <> [] -> occurs_at ph d b <-> del d = false /\ phrase_at i f ps d b.
  Proof.
    intros Hne. assert (G : forall ps1 ph1, Forall2 (fun p (x : Z * list (Z * list Z)) => fst x = fst p /\ pos_list i del f (snd p) (snd x)) ps1 ph1 -> occurs_at ph1 d b <-> Forall (fun p : Z * list (list Z) => del d = false /\ exists t x, In t (snd p) /\ In x (plook i f t) /\ fst x = d /\ In (b + fst p) (snd x)) ps1).
    { induction 1 as [|p x ps1 ph1 (E1 & H1) H2 IH]; [split; constructor|]. unfold occurs_at in *. rewrite !Forall_cons_iff, IH, E1, (pos_list_in _ _ _ _ H1). reflexivity. }
    rewrite (G ps ph HP). unfold phrase_at. destruct ps as [|p ps1]; [congruence|]. rewrite !Forall_cons_iff, !Forall_forall. split; [intros ((A & B) & C); splits; auto; intros q Hq; apply (C q Hq)|]. intros (A & B & C). split; [auto|]. intros q Hq. split; [exact A|]. apply (C q Hq).
  Qed.
  Lemma ph_in d : ps <> [] -> phrase_in ph d <-> has_phrase i f del ps d.
  Proof.
    intros Hne. unfold phrase_in, has_phrase. split; [intros (b & H); apply (ph_at d b Hne) in H; destruct H as (A & B); eauto|]. intros (A & b & B). exists b. apply (ph_at d b Hne). auto.
  Qed.
  Lemma ph_near slop d : ps <> [] -> window_in slop ph d <-> has_near i f del slop ps d.
  Proof.
    intros Hne. unfold window_in, has_near.
    assert (G : forall ps1 ph1, Forall2 (fun p (x : Z * list (Z * list Z)) => fst x = fst p /\ pos_list i del f (snd p) (snd x)) ps1 ph1 -> forall xs, Forall2 (fun (t : Z * list (Z * list Z)) x => exists l, In (d, l) (snd t) /\ In (x + fst t) l) ph1 xs <-> Forall2 (fun (p : Z * list (list Z)) b => del d = false /\ exists t x, In t (snd p) /\ In x (plook i f t) /\ fst x = d /\ In (b + fst p) (snd x)) ps1 xs).
    { induction 1 as [|p x ps1 ph1 (E1 & H1) H2 IH]; intros xs; [split; inversion 1; constructor|]. split; inversion 1 as [|? b ? xs' A B]; subst; (constructor; [|apply IH; exact B]); apply (pos_list_in _ _ d (b + fst p) H1) || (rewrite E1; apply (pos_list_in _ _ d (b + fst p) H1)); [rewrite E1 in A|]; exact A. }
    split.
    - intros (xs & A & B). apply (G ps ph HP) in A. split; [destruct A as [|p b ps1 xs1 (A & _) _]; [congruence|exact A]|]. exists xs. split; [|exact B]. clear - A. induction A as [|p b ps1 xs1 (_ & A) A' IH]; constructor; auto.
    - intros (D & xs & A & B). exists xs. split; [|exact B]. apply (G ps ph HP). clear - A D. induction A as [|p b ps1 xs1 A A' IH]; constructor; auto.
  Qed.
  Lemma ph_begins : leads i f ps -> begins ph.
  Proof.
    intros (p & Hp & Hz). unfold begins. apply Exists_exists. assert (G : exists x, In x ph /\ fst x = fst p /\ pos_list i del f (snd p) (snd x)). { clear - HP Hp. induction HP as [|q x ps1 ph1 H1 H2 IH]; [destruct Hp|]. destruct Hp as [<-|Hp]; [exists x; split; [left; reflexivity|exact H1]|destruct (IH H2 Hp) as (x' & A & B); exists x'; split; [right; exact A|exact B]]. }
    destruct G as (x & Hx & E & HL). exists x. split; [exact Hx|]. apply Forall_forall. intros (d & l) Hl. apply Forall_forall. intros z Hin. cbn [snd] in Hin. destruct (proj1 (pos_list_in _ _ d z HL) (ex_intro _ l (conj Hl Hin))) as (_ & t & e & A & B & _ & C). rewrite E. specialize (Hz t e A B). rewrite Forall_forall in Hz. auto.
  Qed.
  Lemma ph_plain : plain i f ps -> no_repeats ph.
  Proof.
    unfold plain, no_repeats. intros H. induction HP as [|p x ps1 ph1 (_ & H1) H2 IH]; [constructor|]. inversion H as [|? ? (t & Et & Ht) Hr]; subst. constructor; [|apply IH; auto]. rewrite Et in H1. cbn [pos_list] in H1. rewrite H1. apply Forall_forall. intros e He. apply alive_in in He. apply Ht. tauto.
  Qed.
End POS.

(* ---------- the scorer *)
Definition fits (slop : Z) (chk : bool) (ph : list (Z * list (Z * list Z))) : Prop := slop = 0 \/ chk = false /\ (2 <= length ph)%nat /\ begins ph.
Section SCORER.
  Variables (i : pidx) (r : prdr) (y : idx) (del : Z -> bool) (qs : list (list Z) -> list nat) (slop : Z) (chk : bool) (ph : list (Z * list (Z * list Z))).
  Hypothesis (HD : dicts i r y) (HQ : qs_ok qs) (Hph : phrase_ok ph) (Hfit : fits slop chk ph).
  (* the scorer on lists that a scorer on enumerators follows *)
  Definition follows (s : csc) (cur : option Z) : Prop := exists a, Rsc i r y del slop chk s a /\ reached (run_of qs slop chk) (phsc_new ph) a cur.
  Lemma lists_run a cur op : reached (run_of qs slop chk) (phsc_new ph) a cur -> beyond cur op -> exists b a', gives (run_of qs slop chk) op a (b, a') /\
    if b then after cur op (h_doc a') /\ window_in slop ph (h_doc a') /\ (forall d, after cur op d -> window_in slop ph d -> h_doc a' <= d) /\ 0 < h_freq a' /\ (slop = 0 -> no_repeats ph -> occurrences ph (h_doc a') (h_freq a'))
    else forall d, after cur op d -> ~ window_in slop ph d.
  Proof.
    unfold run_of, pf_of. destruct (Z.eqb_spec slop 0) as [->|Hs].
    - intros HA Hb. destruct (exact_phrase (sort_by qs) (sort_by_sorts qs HQ) ph Hph a cur op HA Hb) as (b & a' & Hg & Ho). exists b, a'. split; [exact Hg|]. destruct b.
      + destruct Ho as (H1 & H2 & H3 & H4 & H5). splits; auto; [apply window_exact; exact H2|]. intros d A B. apply H3; [exact A|]. apply window_exact. exact B.
      + intros d A B. apply (Ho d A). apply window_exact. exact B.
    - destruct Hfit as [E|(-> & H2 & Hb)]; [congruence|]. intros HA Hb'. destruct (sloppy_phrase (sort_by qs) (sort_by_sorts qs HQ) ph Hph H2 Hb slop a cur op HA Hb') as (b & a' & Hg & Ho). exists b, a'. split; [exact Hg|]. destruct b; [|exact Ho]. destruct Ho as (A1 & A2 & A3 & A4 & _). splits; auto. intros E. congruence.
  Qed.
  Lemma follow s cur op : follows s cur -> beyond cur op -> exists b s', cgives r del qs op s (b, s') /\
    if b then follows s' (Some (s_doc s')) /\ after cur op (s_doc s') /\ window_in slop ph (s_doc s') /\ (forall d, after cur op d -> window_in slop ph d -> s_doc s' <= d) /\ 0 < s_freq s' /\ (slop = 0 -> no_repeats ph -> occurrences ph (s_doc s') (s_freq s'))
    else forall d, after cur op d -> ~ window_in slop ph d.
  Proof.
    intros (a & HR & HA) Hb. destruct (lists_run a cur op HA Hb) as (b & a' & (n & Hn) & Ho). destruct (sim_run i r y del qs HD slop chk n op s a b a' HR (Hn n (le_n n))) as (s' & E & HR'). pose proof HR' as (_ & _ & Ed & Ef & _). exists b, s'. split; [exists n; intros k Hk; apply (run_le _ _ _ n k _ _ _ Hk E)|]. destruct b; [|exact Ho]. rewrite Ed, Ef. split; [|exact Ho]. exists a'. split; [exact HR'|]. eapply R_step; [exact HA|exact Hb|]. exists n. exact Hn.
  Qed.
  Lemma follow_reached s0 s cur : follows s0 None -> creached r del qs s0 s cur -> follows s cur.
  Proof.
    intros H0 H. induction H as [|s cur op s' H IH Hb (n & Hn)]; [exact H0|]. destruct (follow s cur op IH Hb) as (b & s2 & (m & Hm) & Ho). specialize (Hn (max n m) (Nat.le_max_l _ _)). rewrite (Hm (max n m) (Nat.le_max_r _ _)) in Hn. apply some_inj in Hn. apply pair_equal_spec in Hn. destruct Hn as (-> & ->). apply Ho.
  Qed.
End SCORER.
Lemma repeats_nodup ts : NoDup ts -> repeats [] ts = false.
Proof.
  assert (G : forall ts seen, NoDup ts -> (forall t, In t ts -> ~ In t seen) -> repeats seen ts = false).
  { induction ts0 as [|t ts0 IH]; intros seen ND Hs; cbn [repeats]; [reflexivity|]. inversion ND as [|? ? N1 N2]; subst. destruct (existsb (seqb t) seen) eqn:E; [apply existsb_exists in E; destruct E as (u & Hu & Eu); apply seqb_spec in Eu; subst u; exfalso; apply (Hs t (or_introl eq_refl) Hu)|]. apply IH; [exact N2|]. intros u Hu [<-|Hi]; [auto|]. apply (Hs u (or_intror Hu) Hi). }
  intros H. apply G; auto.
Qed.
Definition chk_of (slop : Z) (ps : list (Z * list (list Z))) : bool := negb (slop =? 0) && repeats [] (flat_map snd ps).
Definition near_ok (i : pidx) (f slop : Z) (ps : list (Z * list (list Z))) : Prop := slop = 0 \/ NoDup (flat_map snd ps) /\ (2 <= length ps)%nat /\ leads i f ps.
Lemma near_fits i r del f slop ps ph : pidx_open i r -> Forall2 (fun p (x : Z * list (Z * list Z)) => fst x = fst p /\ pos_list i del f (snd p) (snd x)) ps ph -> near_ok i f slop ps -> fits slop (chk_of slop ps) ph.
Proof.
  intros HO HP [->|(H1 & H2 & H3)]; [left; reflexivity|]. right. splits; [unfold chk_of; rewrite (repeats_nodup _ H1); apply andb_false_r|rewrite <- (Forall2_length HP); exact H2|apply (ph_begins i r del f HO ps ph HP H3)].
Qed.
Lemma scorer_opens i r y del qs t f slop ps : dicts i r y -> pidx_open i r -> tir_used r t -> pidx_field i f -> ps <> [] -> exists ph s t', phw_scorer r del t (Some f) slop ps = Some (Some s, t') /\ tir_used r t' /\ follows i r y del qs slop (chk_of slop ps) ph s None /\
  Forall2 (fun p (x : Z * list (Z * list Z)) => fst x = fst p /\ pos_list i del f (snd p) (snd x)) ps ph.
Proof.
  intros HD HO U Hf Hne. destruct (open_sim i r y del HD f Hf (fun t => proj1 (plook_pinc i r f t HO)) ps t U) as (ph & lc & t' & E & U' & HR & HP). unfold phw_scorer. destruct ps as [|p ps]; [congruence|]. rewrite E. cbn [obind fst snd]. eexists ph, _, t'. split; [reflexivity|]. splits; auto. exists (phsc_new ph). split; [|constructor]. unfold Rsc. cbn [s_doc s_freq s_pos s_idx s_first s_more s_slop s_chk]. splits; auto.
Qed.
Theorem near_scorer i r del qs t f slop ps : pidx_open i r -> tir_used r t -> pidx_field i f -> qs_ok qs -> ps <> [] -> in_order i f (flat_map snd ps) -> near_ok i f slop ps ->
  exists s t', phw_scorer r del t (Some f) slop ps = Some (Some s, t') /\ tir_used r t' /\
    forall s1 cur op, creached r del qs s s1 cur -> beyond cur op -> exists b s2, cgives r del qs op s1 (b, s2) /\
      if b then after cur op (s_doc s2) /\ has_near i f del slop ps (s_doc s2) /\ (forall d, after cur op d -> has_near i f del slop ps d -> s_doc s2 <= d) /\ 0 < s_freq s2 /\ (slop = 0 -> plain i f ps -> phrase_count i f ps (s_doc s2) (s_freq s2))
      else forall d, after cur op d -> ~ has_near i f del slop ps d.
Proof.
  intros HO U Hf HQ Hne HI HN. destruct (dicts_of i r HO) as (y & HD). destruct (scorer_opens i r y del qs t f slop ps HD HO U Hf Hne) as (ph & s & t' & E & U' & H0 & HP). exists s, t'. split; [exact E|]. split; [exact U'|]. intros s1 cur op Hr Hb.
  pose proof (ph_ok i r del f HO ps ph HP Hne HI) as Hph. pose proof (near_fits i r del f slop ps ph HO HP HN) as HF. destruct (follow i r y del qs slop _ ph HD HQ Hph HF s1 cur op (follow_reached i r y del qs slop _ ph HD HQ Hph HF s s1 cur H0 Hr) Hb) as (b & s2 & Hg & Ho). exists b, s2. split; [exact Hg|]. destruct b.
  - destruct Ho as (_ & H1 & H2 & H3 & H4 & H5). apply (ph_near i r del f HO ps ph HP slop _ Hne) in H2. splits; auto.
    + intros d A B. apply H3; [exact A|]. apply (ph_near i r del f HO ps ph HP slop _ Hne). exact B.
    + intros Hs Hpl. destruct (H5 Hs (ph_plain i del f ps ph HP Hpl)) as (bs & B1 & B2 & B3). exists bs. splits; auto. intros b. rewrite B2, (ph_at i r del f HO ps ph HP _ _ Hne). destruct H2 as (Hdel & _). tauto.
  - intros d A B. apply (Ho d A). apply (ph_near i r del f HO ps ph HP slop _ Hne). exact B.
Qed.
(* without slop *)
Lemma near_exact i f del ps d : has_phrase i f del ps d <-> has_near i f del 0 ps d.
Proof.
  unfold has_phrase, has_near, phrase_at. rewrite <- (pairs_window (fun (p : Z * list (list Z)) b => exists t x, In t (snd p) /\ In x (plook i f t) /\ fst x = d /\ In (b + fst p) (snd x)) 0 ps) by (left; lia).
  split; intros (D & b & Hb); (split; [exact D|]); exists b; (eapply Forall_impl; [|exact Hb]); cbn beta; intros p H.
  - exists b. split; [exact H|lia].
  - destruct H as (x & H & Hx). replace b with x by lia. exact H.
Qed.
Theorem phrase_scorer i r del qs t f ps : pidx_open i r -> tir_used r t -> pidx_field i f -> qs_ok qs -> ps <> [] -> in_order i f (flat_map snd ps) ->
  exists s t', phw_scorer r del t (Some f) 0 ps = Some (Some s, t') /\ tir_used r t' /\
    forall s1 cur op, creached r del qs s s1 cur -> beyond cur op -> exists b s2, cgives r del qs op s1 (b, s2) /\
      if b then after cur op (s_doc s2) /\ has_phrase i f del ps (s_doc s2) /\ (forall d, after cur op d -> has_phrase i f del ps d -> s_doc s2 <= d) /\ 0 < s_freq s2 /\ (plain i f ps -> phrase_count i f ps (s_doc s2) (s_freq s2))
      else forall d, after cur op d -> ~ has_phrase i f del ps d.
Proof.
  intros HO U Hf HQ Hne HI. destruct (near_scorer i r del qs t f 0 ps HO U Hf HQ Hne HI (or_introl eq_refl)) as (s & t' & E & U' & G). exists s, t'. split; [exact E|]. split; [exact U'|]. intros s1 cur op Hr Hb. destruct (G s1 cur op Hr Hb) as (b & s2 & Hg & Ho). exists b, s2. split; [exact Hg|]. destruct b.
  - destruct Ho as (H1 & H2 & H3 & H4 & H5). splits; auto; [apply near_exact; exact H2|]. intros d A B. apply H3; [exact A|]. apply near_exact. exact B.
  - intros d A B. apply (Ho d A). apply near_exact. exact B.
Qed.
Theorem sloppy_scorer i r del qs t f slop ps : pidx_open i r -> tir_used r t -> pidx_field i f -> qs_ok qs -> in_order i f (flat_map snd ps) -> NoDup (flat_map snd ps) -> (2 <= length ps)%nat -> leads i f ps ->
  exists s t', phw_scorer r del t (Some f) slop ps = Some (Some s, t') /\ tir_used r t' /\
    forall s1 cur op, creached r del qs s s1 cur -> beyond cur op -> exists b s2, cgives r del qs op s1 (b, s2) /\
      if b then after cur op (s_doc s2) /\ has_near i f del slop ps (s_doc s2) /\ (forall d, after cur op d -> has_near i f del slop ps d -> s_doc s2 <= d) /\ 0 < s_freq s2
      else forall d, after cur op d -> ~ has_near i f del slop ps d.
Proof.
  intros HO U Hf HQ HI HN HL HB. assert (Hne : ps <> []) by (intros ->; cbn in HL; lia). destruct (near_scorer i r del qs t f slop ps HO U Hf HQ Hne HI (or_intror (conj HN (conj HL HB)))) as (s & t' & E & U' & G). exists s, t'. split; [exact E|]. split; [exact U'|]. intros s1 cur op Hr Hb. destruct (G s1 cur op Hr Hb) as (b & s2 & Hg & Ho). exists b, s2. split; [exact Hg|]. destruct b; [|exact Ho]. destruct Ho as (H1 & H2 & H3 & H4 & _). splits; auto.
Qed.
Lemma near_more i f del ps d a b : a <= b -> has_near i f del a ps d -> has_near i f del b ps d.
Proof.
  intros L (D & xs & H & A). split; [exact D|]. exists xs. split; [exact H|]. clear H. unfold apart in *. induction A as [|x xs Hx A IH]; constructor; [|exact IH]. eapply Forall_impl; [|exact Hx]. cbn beta. intros; lia.
Qed.
