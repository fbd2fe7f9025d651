From Verif Require Import Util Strcmp Query_Model Query_Spec.
Open Scope Z_scope.
Section I.
  Variable P : query -> Prop.
  Hypotheses (H1 : forall t, P (QTerm t)) (H2 : forall ts, P (QMany ts)) (H3 : forall n, P (QExp n)) (H4 : P QAll) (H5 : forall cd cs, Forall (fun c => P (snd c)) cs -> P (QBool cd cs)).
  Fixpoint query_ind2 (q : query) : P q :=
    match q with
    | QTerm t => H1 t | QMany ts => H2 ts | QExp n => H3 n | QAll => H4
    | QBool cd cs => H5 cd cs ((fix go (l : list (occur * query)) : Forall (fun c => P (snd c)) l := match l with [] => Forall_nil _ | c :: l' => Forall_cons c (query_ind2 (snd c)) (go l') end) cs)
    end.
End I.
(* a boolean query over what its clauses ask *)
Definition bool_of (R : query -> Prop) (cs : list (occur * query)) : Prop :=
  (forall o x, In (o, x) cs -> match o with Must => R x | MustNot => ~ R x | Should => True end) /\
  ((exists x, In (Must, x) cs) \/ (exists x, In (Should, x) cs /\ R x) \/ (cs <> [] /\ forall o x, In (o, x) cs -> o = MustNot)).
Lemma asks_bool pat d cd cs : asks pat d (QBool cd cs) <-> bool_of (asks pat d) cs.
Proof.
  cbn [asks]. unfold bool_of. match goal with |- (?F cs /\ _) <-> _ => assert (G1 : F cs <-> (forall o x, In (o, x) cs -> match o with Must => asks pat d x | MustNot => ~ asks pat d x | Should => True end)) end.
  { induction cs as [|(o, x) cs IH]; [split; [intros _ o x []|auto]|]. split.
    - intros H o' x' [E|Hin]; [injection E as <- <-; destruct o; tauto|]. apply IH; [destruct o; tauto|exact Hin].
    - intros H. pose proof (H o x (or_introl eq_refl)) as H0. assert (H' : forall o x, In (o, x) cs -> match o with Must => asks pat d x | MustNot => ~ asks pat d x | Should => True end) by (intros; apply H; right; assumption). apply IH in H'. destruct o; tauto. }
  match goal with |- (_ /\ (_ \/ ?F cs \/ _)) <-> _ => assert (G2 : F cs <-> (exists x, In (Should, x) cs /\ asks pat d x)) end.
  { clear G1. induction cs as [|(o, x) cs IH]; [split; [intros []|intros (x & [] & _)]|]. split.
    - intros H. destruct o; [destruct H as [H|H]; [exists x; split; [left; reflexivity|exact H]|]| |]; apply IH in H; destruct H as (y & Hy & H); exists y; (split; [right; exact Hy|exact H]).
    - intros (y & [E|Hy] & H); [injection E as -> ->; left; exact H|]. assert (H' : exists y, In (Should, y) cs /\ asks pat d y) by (exists y; auto). apply IH in H'. destruct o; auto. }
  rewrite G1, G2. reflexivity.
Qed.
Lemma runs_bool d cd cs : runs d (QBool cd cs) = true <-> (forall o x, In (o, x) cs -> match o with Must => runs d x = true | MustNot => runs d x <> true | Should => True end) /\ ((exists x, In (Must, x) cs) \/ (exists x, In (Should, x) cs /\ runs d x = true)).
Proof.
  cbn [runs]. rewrite andb_true_iff, forallb_forall, orb_true_iff, !existsb_exists. split.
  - intros (H1 & H2). split.
    + intros o x Hin. specialize (H1 (o, x) Hin). cbn [fst snd] in H1. destruct o; auto. destruct (runs d x); [discriminate|discriminate].
    + destruct H2 as [((o, x) & Hin & E)|((o, x) & Hin & E)]; cbn [fst snd] in E; destruct o; try discriminate; [left; eauto|right; eauto].
  - intros (H1 & H2). split.
    + intros (o, x) Hin. specialize (H1 o x Hin). cbn [fst snd]. destruct o; auto. destruct (runs d x); [destruct H1; reflexivity|reflexivity].
    + destruct H2 as [(x & Hin)|(x & Hin & E)]; [left; exists (Must, x); auto|right; exists (Should, x); auto].
Qed.
Section V.
  Variable pat : nat -> list Z -> bool.
  Lemma rewrite_bool d v cd cs : runs d (rewrite_q pat v (QBool cd cs)) = true <-> bool_of (fun x => runs d (rewrite_q pat v x) = true) cs.
  Proof.
    set (f := fun c : occur * query => (fst c, rewrite_q pat v (snd c))).
    assert (Hin : forall o r, In (o, r) (map f cs) <-> exists x, In (o, x) cs /\ r = rewrite_q pat v x).
    { intros o r. rewrite in_map_iff. unfold f. split; [intros ((o', x) & E & Hx); cbn [fst snd] in E; injection E as <- <-; eauto|intros (x & Hx & ->); exists (o, x); auto]. }
    assert (G : runs d (QBool cd (map f cs ++ (if negb (Nat.eqb (length cs) 0) && forallb (fun c : occur * query => is_not (fst c)) cs then [(Must, QAll)] else []))) = true <-> bool_of (fun x => runs d (rewrite_q pat v x) = true) cs).
    { rewrite runs_bool. unfold bool_of. set (b := negb (Nat.eqb (length cs) 0) && forallb (fun c : occur * query => is_not (fst c)) cs). assert (Hb : b = true <-> cs <> [] /\ forall o x, In (o, x) cs -> o = MustNot).
      { unfold b. rewrite andb_true_iff, forallb_forall. split; intros (Ha & Hc); split.
        - intros ->; discriminate.
        - intros o x Hox. specialize (Hc (o, x) Hox). cbn [fst] in Hc. destruct o; [discriminate|discriminate|reflexivity].
        - destruct cs; [congruence|reflexivity].
        - intros (o, x) Hox. rewrite (Hc o x Hox). reflexivity. }
      split.
      - intros (H1 & H2). split.
        + intros o x Hox. specialize (H1 o (rewrite_q pat v x) (in_or_app _ _ _ (or_introl (proj2 (Hin o _) (ex_intro _ x (conj Hox eq_refl)))))). exact H1.
        + destruct H2 as [(r & Hr)|(r & Hr & E)].
          * apply in_app_or in Hr. destruct Hr as [Hr|Hr]; [apply Hin in Hr; destruct Hr as (x & Hx & _); left; eauto|]. right. right. apply Hb. destruct b; [reflexivity|destruct Hr].
          * apply in_app_or in Hr. destruct Hr as [Hr|Hr]; [apply Hin in Hr; destruct Hr as (x & Hx & ->); right; left; eauto|]. destruct b; [destruct Hr as [Hr|[]]; discriminate|destruct Hr].
      - intros (H1 & H2). split.
        + intros o r Hr. apply in_app_or in Hr. destruct Hr as [Hr|Hr]; [apply Hin in Hr; destruct Hr as (x & Hx & ->); exact (H1 o x Hx)|]. destruct b; [destruct Hr as [Hr|[]]; injection Hr as <- <-; reflexivity|destruct Hr].
        + destruct H2 as [(x & Hx)|[(x & Hx & E)|H2]].
          * left. exists (rewrite_q pat v x). apply in_or_app. left. apply Hin. eauto.
          * right. exists (rewrite_q pat v x). split; [|exact E]. apply in_or_app. left. apply Hin. eauto.
          * apply Hb in H2. left. exists QAll. apply in_or_app. right. rewrite H2. left. reflexivity. }
    cbn [rewrite_q]. fold f. destruct cs as [|(o, x) [|c cs]].
    - cbn [map length Nat.eqb negb andb app] in *. exact G.
    - cbn [map]. unfold f at 1. cbn [fst snd]. destruct o; cbn [is_not].
      + unfold bool_of. split.
        * intros E. split; [intros o y [Ho|[]]; injection Ho as <- <-; exact I|]. right. left. exists x. split; [left; reflexivity|exact E].
        * intros (_ & [(y & [E|[]])|[(y & [E|[]] & H)|(_ & H)]]); [discriminate|injection E as <-; exact H|specialize (H Should x (or_introl eq_refl)); discriminate].
      + unfold bool_of. split.
        * intros E. split; [intros o y [Ho|[]]; injection Ho as <- <-; exact E|]. left. exists x. left. reflexivity.
        * intros (H & _). exact (H Must x (or_introl eq_refl)).
      + exact G.
    - cbn [map] in *. exact G.
  Qed.
  Lemma bool_ext (R R' : query -> Prop) cs : (forall o x, In (o, x) cs -> (R x <-> R' x)) -> bool_of R cs <-> bool_of R' cs.
  Proof.
    intros H. unfold bool_of. assert (G : forall (R R' : query -> Prop), (forall o x, In (o, x) cs -> (R x <-> R' x)) -> bool_of R cs -> bool_of R' cs).
    { clear. intros R R' H (H1 & H2). split.
      - intros o x Hin. specialize (H1 o x Hin). specialize (H o x Hin). destruct o; tauto.
      - destruct H2 as [H2|[(x & Hin & Hx)|H2]]; auto. right. left. exists x. split; [exact Hin|]. apply (H _ _ Hin). exact Hx. }
    split; apply G; auto. intros o x Hin. specialize (H o x Hin). tauto.
  Qed.
  Lemma bool_mono (R R' : query -> Prop) cs : (forall o x, In (o, x) cs -> if is_not o then R x <-> R' x else R x -> R' x) -> bool_of R cs -> bool_of R' cs.
  Proof.
    intros H (H1 & H2). split.
    - intros o x Hin. specialize (H1 o x Hin). specialize (H o x Hin). destruct o; cbn [is_not] in H; tauto.
    - destruct H2 as [H2|[(x & Hin & Hx)|H2]]; auto. right. left. exists x. split; [exact Hin|]. exact (H _ _ Hin Hx).
  Qed.
  Lemma in_term t d : existsb (term_eqb t) d = true <-> In t d.
  Proof.
    rewrite existsb_exists. unfold term_eqb. split; [intros (x & Hx & E); destruct (list_eq_dec Z.eq_dec t x); [subst; exact Hx|discriminate]|intros H; exists t; split; [exact H|]; destruct (list_eq_dec Z.eq_dec t t); congruence].
  Qed.
  Lemma many_ok d ts : existsb (fun t => existsb (term_eqb t) d) ts = true <-> exists t, In t ts /\ In t d.
  Proof. rewrite existsb_exists. split; intros (t & H1 & H2); exists t; (split; [exact H1|apply in_term; exact H2]). Qed.
  Lemma full_ok v d : incl d v -> forall q, runs d (rewrite_q pat v q) = true <-> asks pat d q.
  Proof.
    intros Hv. apply query_ind2.
    - intros t. cbn. apply in_term.
    - intros ts. apply many_ok.
    - intros n. cbn [rewrite_q runs asks]. rewrite many_ok. split; [intros (t & H1 & H2); apply filter_In in H1; exists t; tauto|intros (t & H1 & H2); exists t; split; [apply filter_In; split; [apply Hv; exact H1|exact H2]|exact H1]].
    - cbn. tauto.
    - intros cd cs HF. rewrite rewrite_bool, asks_bool. apply bool_ext. intros o x Hin. rewrite Forall_forall in HF. exact (HF (o, x) Hin).
  Qed.
  Lemma plain_ok v d : forall q, plain q = true -> (runs d (rewrite_q pat v q) = true <-> asks pat d q).
  Proof.
    apply (query_ind2 (fun q => plain q = true -> (runs d (rewrite_q pat v q) = true <-> asks pat d q))).
    - intros t _. cbn. apply in_term.
    - intros ts _. apply many_ok.
    - discriminate.
    - intros _. cbn. tauto.
    - intros cd cs HF Hp. rewrite rewrite_bool, asks_bool. apply bool_ext. intros o x Hin. cbn [plain] in Hp. rewrite forallb_forall in Hp. rewrite Forall_forall in HF. exact (HF (o, x) Hin (Hp (o, x) Hin)).
  Qed.
  Lemma positive_ok v d : forall q, positive q = true -> runs d (rewrite_q pat v q) = true -> asks pat d q.
  Proof.
    apply (query_ind2 (fun q => positive q = true -> runs d (rewrite_q pat v q) = true -> asks pat d q)).
    - intros t _. cbn. apply in_term.
    - intros ts _. apply many_ok.
    - intros n _. cbn [rewrite_q runs asks]. rewrite many_ok. intros (t & H1 & H2). apply filter_In in H1. exists t. tauto.
    - intros _ _. exact I.
    - intros cd cs HF Hp. rewrite rewrite_bool, asks_bool. apply bool_mono. intros o x Hin. cbn [positive] in Hp. rewrite forallb_forall in Hp. specialize (Hp (o, x) Hin). cbn [fst snd] in Hp. rewrite Forall_forall in HF. destruct (is_not o); [apply plain_ok; exact Hp|exact (HF (o, x) Hin Hp)].
  Qed.
  (* q_combine *)
  Lemma term_eqb_eq a b : term_eqb a b = true -> a = b.
  Proof. unfold term_eqb. destruct (list_eq_dec Z.eq_dec a b); congruence. Qed.
  Lemma terms_eqb_eq : forall l m, list_eqb term_eqb l m = true -> l = m.
  Proof. induction l as [|a l IH]; intros [|b m]; cbn [list_eqb]; try discriminate; auto. rewrite andb_true_iff. intros (H1 & H2). apply term_eqb_eq in H1. rewrite H1, (IH m H2). reflexivity. Qed.
  Lemma q_eqb_eq : forall a b, q_eqb a b = true -> a = b.
  Proof.
    apply (query_ind2 (fun a => forall b, q_eqb a b = true -> a = b)).
    - intros t [u| | | |]; cbn [q_eqb]; try discriminate. intros E. apply term_eqb_eq in E. congruence.
    - intros t [|u| | |]; cbn [q_eqb]; try discriminate. intros E. apply terms_eqb_eq in E. congruence.
    - intros t [| |u| |]; cbn [q_eqb]; try discriminate. intros E. apply Nat.eqb_eq in E. congruence.
    - intros [| | | |]; cbn [q_eqb]; try discriminate. reflexivity.
    - intros c cs HF [| | | |d ds]; cbn [q_eqb]; try discriminate. rewrite andb_true_iff. intros (E & H). apply Bool.eqb_prop in E. subst d. f_equal. revert ds H. induction HF as [|(o, x) cs Hx HF IH]; intros [|(p, y) ds]; try discriminate; auto. rewrite !andb_true_iff. intros ((H1 & H2) & H3). apply Hx in H2. cbn [snd] in H2. subst y. rewrite (IH ds H3). destruct o, p; try discriminate; reflexivity.
  Qed.
  Lemma unique_ok d : forall qs us, (exists u, In u (fold_left add_unique qs us) /\ runs d u = true) <-> (exists u, In u (us ++ qs) /\ runs d u = true).
  Proof.
    induction qs as [|q qs IH]; intros us; cbn [fold_left]; [rewrite app_nil_r; reflexivity|]. rewrite IH. unfold add_unique. destruct (existsb (fun u => q_eqb u q) us) eqn:E; [|rewrite <- app_assoc; reflexivity].
    apply existsb_exists in E. destruct E as (w & Hw & E). apply q_eqb_eq in E. subst w. split; intros (u & Hu & H); exists u; (split; [|exact H]); apply in_app_or in Hu; apply in_or_app; destruct Hu as [Hu|Hu]; auto; [right; right; exact Hu|]. destruct Hu as [<-|Hu]; auto.
  Qed.
  Lemma shoulds_ok d cs : forallb (fun c : occur * query => is_should (fst c)) cs = true -> forall cd, runs d (QBool cd cs) = true <-> exists x, In x (map snd cs) /\ runs d x = true.
  Proof.
    intros Hs cd. rewrite forallb_forall in Hs. rewrite runs_bool. split.
    - intros (_ & [(x & Hx)|(x & Hx & E)]); [specialize (Hs _ Hx); discriminate|]. exists x. split; [apply in_map_iff; exists (Should, x); auto|exact E].
    - intros (x & Hx & E). apply in_map_iff in Hx. destruct Hx as ((o, y) & Ey & Hy). cbn [snd] in Ey. subst y. pose proof (Hs _ Hy) as Ho. destruct o; try discriminate. split; [intros o y Hoy; specialize (Hs _ Hoy); destruct o; try discriminate; exact I|right; eauto].
  Qed.
  Lemma parts_ok d q : (exists x, In x (parts q) /\ runs d x = true) <-> runs d q = true.
  Proof.
    assert (G : (exists x, In x [q] /\ runs d x = true) <-> runs d q = true) by (split; [intros (x & [<-|[]] & H); exact H|intros H; exists q; split; [left; reflexivity|exact H]]).
    unfold parts. destruct q as [| | | |[|] cs]; try exact G. destruct (forallb _ cs) eqn:E; [|exact G]. symmetry. apply shoulds_ok. exact E.
  Qed.
  Lemma combine_ok d qs : runs d (q_combine qs) = true <-> exists q, In q qs /\ runs d q = true.
  Proof.
    assert (G : (exists u, In u (fold_left add_unique (flat_map parts qs) []) /\ runs d u = true) <-> exists q, In q qs /\ runs d q = true).
    { rewrite unique_ok. cbn [app]. split.
      - intros (u & Hu & H). apply in_flat_map in Hu. destruct Hu as (q & Hq & Hu). exists q. split; [exact Hq|]. apply parts_ok. eauto.
      - intros (q & Hq & H). apply parts_ok in H. destruct H as (u & Hu & H). exists u. split; [apply in_flat_map; eauto|exact H]. }
    rewrite <- G. unfold q_combine. set (us := fold_left add_unique (flat_map parts qs) []).
    assert (G2 : runs d (QBool true (map (fun u => (Should, u)) us)) = true <-> exists u, In u us /\ runs d u = true).
    { rewrite shoulds_ok by (apply forallb_forall; intros c Hc; apply in_map_iff in Hc; destruct Hc as (u & <- & _); reflexivity). rewrite map_map. cbn [snd]. rewrite map_id. reflexivity. }
    destruct us as [|u [|u2 us]]; try exact G2. split; [intros H; exists u; split; [left; reflexivity|exact H]|intros (x & [<-|[]] & H); exact H].
  Qed.
  Lemma msea_rewrite_ok vs d q : positive q = true -> (exists v, In v vs /\ incl d v) -> (runs d (msea_rewrite pat vs q) = true <-> asks pat d q).
  Proof.
    intros Hp (v & Hv & Hi). unfold msea_rewrite. rewrite combine_ok. split.
    - intros (r & Hr & H). apply in_map_iff in Hr. destruct Hr as (w & <- & Hw). eapply positive_ok; eauto.
    - intros H. exists (rewrite_q pat v q). split; [apply in_map_iff; eauto|apply full_ok; auto].
  Qed.
End V.
