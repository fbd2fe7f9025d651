From Coq Require Import Sorting.Permutation Sorting.Sorted.
From Verif Require Import Util PQueue_Model PQueue_Spec PQueue_Proofs Query_Model Bool_Model Bool_Spec.
Open Scope Z_scope.
Ltac splits := match goal with |- _ /\ _ => split; [|splits] | _ => idtac end.

(* ---------- increasing lists *)
Notation SS := (StronglySorted Z.lt).
Lemma from_filter d l : SS l -> from d l = filter (fun x => d <=? x) l.
Proof.
  induction 1 as [|a l HS IH HF]; cbn [from filter]; [reflexivity|]. destruct (Z.ltb_spec a d), (Z.leb_spec d a); try lia; [exact IH|]. f_equal. rewrite Forall_forall in HF. symmetry. clear - H HF. induction l as [|x l IH]; cbn [filter]; [reflexivity|]. specialize (HF x (or_introl eq_refl)) as Hx. destruct (Z.leb_spec d x); [|lia]. f_equal. apply IH. intros y Hy. apply HF. right. exact Hy.
Qed.
Lemma from_in d l x : SS l -> In x (from d l) <-> In x l /\ d <= x.
Proof. intros H. rewrite (from_filter d l H), filter_In. rewrite Z.leb_le. reflexivity. Qed.
Lemma filter_SS f l : SS l -> SS (filter f l).
Proof. induction 1 as [|a l HS IH HF]; cbn [filter]; [constructor|]. destruct (f a); [|exact IH]. constructor; [exact IH|]. rewrite Forall_forall in *. intros x Hx. apply filter_In in Hx. apply HF. tauto. Qed.
Lemma from_SS d l : SS l -> SS (from d l).
Proof. intros H. rewrite (from_filter d l H). apply filter_SS. exact H. Qed.
Lemma SS_eq l1 l2 : SS l1 -> SS l2 -> (forall x, In x l1 <-> In x l2) -> l1 = l2.
Proof.
  intros H1. revert l2. induction H1 as [|a l1 HS IH HF]; intros l2 H2 H.
  - destruct l2 as [|b l2]; [reflexivity|]. destruct (proj2 (H b) (or_introl eq_refl)).
  - destruct H2 as [|b l2 HS2 HF2]; [destruct (proj1 (H a) (or_introl eq_refl))|]. rewrite Forall_forall in HF, HF2. assert (a = b).
    { destruct (proj1 (H a) (or_introl eq_refl)) as [E|Ha]; [auto|]. destruct (proj2 (H b) (or_introl eq_refl)) as [E|Hb]; [auto|]. specialize (HF _ Hb). specialize (HF2 _ Ha). lia. }
    subst b. f_equal. apply IH; [exact HS2|]. intros x. specialize (H x). cbn [In] in H. split; intros Hx.
    + destruct (proj1 H (or_intror Hx)) as [E|]; [|assumption]. subst x. specialize (HF _ Hx). lia.
    + destruct (proj2 H (or_intror Hx)) as [E|]; [|assumption]. subst x. specialize (HF2 _ Hx). lia.
Qed.
Lemma SS_inv a l : SS (a :: l) -> SS l /\ forall x, In x l -> a < x.
Proof. intros H. inversion H as [|? ? H1 H2]; subst. rewrite Forall_forall in H2. auto. Qed.
Lemma SS_app l1 l2 : SS (l1 ++ l2) -> SS l1 /\ SS l2 /\ forall x y, In x l1 -> In y l2 -> x < y.
Proof.
  induction l1 as [|a l1 IH]; cbn [app]; intros H; [splits; [constructor|exact H|intros x y []]|]. inversion H as [|? ? H1 H2]; subst. destruct (IH H1) as (G1 & G2 & G3). rewrite Forall_forall in H2. splits; [constructor; [exact G1|apply Forall_forall; intros x Hx; apply H2; apply in_or_app; auto]|exact G2|].
  intros x y [<-|Hx] Hy; [apply H2; apply in_or_app; auto|auto].
Qed.

(* ---------- the contract of a scorer: it stands at cur (None: not yet moved), the documents in rest follow; skip: skip_to may be called *)
Definition ev (op : option Z) (s : sc) (b : bool) (s' : sc) : Prop := exists n, forall f, (n <= f)%nat -> run f op s = Some (b, s').
Section BOUND.
(* documents are below B *)
Variable B : Z.
Definition above (cur : option Z) (d : Z) : Prop := match cur with None => d < B | Some c => c < d < B end.
Definition tgt (op : option Z) (rest : list Z) : list Z := match op with None => rest | Some d => from d rest end.
Definition nonnil {A} (l : list A) : bool := match l with [] => false | _ => true end.
Definition allowed (skip : bool) (cur : option Z) (op : option Z) : Prop := match op with None => True | Some d => skip = true /\ above cur d /\ 0 <= d end.
Inductive Beh (k : bool) : sc -> option Z -> list Z -> Prop :=
| Beh_intro s cur rest : SS rest -> Forall (fun d => 0 <= d /\ above cur d) rest ->
    (forall op, allowed k cur op -> exists s', ev op s (nonnil (tgt op rest)) s' /\ forall x r, tgt op rest = x :: r -> doc_of s' = x /\ Beh k s' (Some x) r) -> Beh k s cur rest.
Lemma tgt_shorter op rest x r : tgt op rest = x :: r -> (length r < length rest)%nat.
Proof.
  assert (G : forall d l, (length (from d l) <= length l)%nat) by (intros d l; induction l as [|a l IH]; cbn [from]; [lia|]; destruct (a <? d); cbn [length]; lia). destruct op as [d|]; cbn [tgt]; intros E; [specialize (G d rest); rewrite E in G; cbn [length] in G; lia|subst; cbn; lia].
Qed.
Lemma beh_coind k (Rl : sc -> option Z -> list Z -> Prop) :
  (forall s cur rest, Rl s cur rest -> SS rest /\ Forall (fun d => 0 <= d /\ above cur d) rest /\
    forall op, allowed k cur op -> exists s', ev op s (nonnil (tgt op rest)) s' /\ forall x r, tgt op rest = x :: r -> doc_of s' = x /\ Rl s' (Some x) r) ->
  forall s cur rest, Rl s cur rest -> Beh k s cur rest.
Proof.
  intros H. assert (G : forall n s cur rest, (length rest <= n)%nat -> Rl s cur rest -> Beh k s cur rest).
  { induction n as [|n IH]; intros s cur rest Hn HR; destruct (H s cur rest HR) as (H1 & H2 & H3); constructor; auto; intros op Hop; destruct (H3 op Hop) as (s' & E & Hs); exists s'; (split; [exact E|]); intros x r Ex; destruct (Hs x r Ex) as (Hd & HR'); pose proof (tgt_shorter _ _ _ _ Ex); (split; [exact Hd|]); [lia|apply IH; [lia|exact HR']]. }
  intros s cur rest HR. apply (G (length rest)); auto.
Qed.
Lemma beh_weak s cur rest : Beh true s cur rest -> forall k, Beh k s cur rest.
Proof.
  intros H k. apply (beh_coind k (Beh true)); [|exact H]. clear. intros s cur rest H. inversion H as [? ? ? H1 H2 H3]; subst. splits; auto. intros op Hop. apply H3. destruct op as [d|]; cbn [allowed] in *; tauto.
Qed.
Lemma beh_facts k s cur rest : Beh k s cur rest -> SS rest /\ Forall (fun d => 0 <= d /\ above cur d) rest.
Proof. intros H. inversion H; subst. auto. Qed.
Lemma beh_next k s cur rest : Beh k s cur rest -> exists s', ev None s (nonnil rest) s' /\ forall x r, rest = x :: r -> doc_of s' = x /\ Beh k s' (Some x) r.
Proof. intros H. inversion H as [? ? ? H1 H2 H3]; subst. exact (H3 None I). Qed.
Lemma beh_skip s cur rest d : Beh true s cur rest -> above cur d -> 0 <= d -> exists s', ev (Some d) s (nonnil (from d rest)) s' /\ forall x r, from d rest = x :: r -> doc_of s' = x /\ Beh true s' (Some x) r.
Proof. intros H Hd H0. inversion H as [? ? ? H1 H2 H3]; subst. exact (H3 (Some d) (conj eq_refl (conj Hd H0))). Qed.
Lemma tgt_facts op k cur rest : SS rest -> Forall (fun d => 0 <= d /\ above cur d) rest -> allowed k cur op -> SS (tgt op rest) /\ Forall (fun d => 0 <= d /\ above cur d) (tgt op rest) /\ forall x r, tgt op rest = x :: r -> SS r /\ 0 <= x /\ above cur x /\ Forall (fun d => 0 <= d /\ x < d < B) r.
Proof.
  intros H1 H2 _. assert (G1 : SS (tgt op rest)) by (destruct op; [apply from_SS|]; exact H1). assert (G2 : Forall (fun d => 0 <= d /\ above cur d) (tgt op rest)).
  { destruct op as [d|]; [|exact H2]. apply Forall_forall. intros x Hx. cbn [tgt] in Hx. apply from_in in Hx; [|exact H1]. rewrite Forall_forall in H2. apply H2. tauto. }
  splits; auto. intros x r E. rewrite E in G1, G2. apply SS_inv in G1. destruct G1 as (G1 & G3). inversion G2 as [|? ? (G4 & G5) G6]; subst. splits; auto. rewrite Forall_forall in *. intros y Hy. specialize (G6 y Hy). specialize (G3 y Hy). destruct cur; cbn [above] in G6; lia.
Qed.

(* ---------- leaves *)
Lemma term_beh l : SS l -> Forall (fun d => 0 <= d < B) l -> Beh true (Term 0 [] l) None l.
Proof.
  intros HS HF. apply (beh_coind true (fun s cur rest => SS rest /\ Forall (fun d => 0 <= d /\ above cur d) rest /\ exists doc c t, s = Term doc c t /\ rest = c ++ t)).
  2:{ splits; auto. exists 0, [], l; auto. }
  clear. intros s cur rest (H1 & H2 & doc & c & t & -> & Er). splits; auto. intros op Hop. destruct (tgt_facts op true cur rest H1 H2 Hop) as (_ & _ & G). destruct op as [d|]; cbn [tgt] in *.
  - subst rest. assert (E : from d (c ++ t) = from d c ++ (if nonnil (from d c) then t else from d t)).
    { clear. induction c as [|x c IH]; cbn [app from]; [reflexivity|]. destruct (x <? d); [exact IH|reflexivity]. }
    unfold nonnil in E |- *. rewrite E in *. destruct (from d c) as [|x c'] eqn:Ec; cbn [app] in *.
    + destruct (from d t) as [|x r] eqn:Et.
      * exists (Term doc [] []). split; [exists 1%nat; intros [|f] Hf; [lia|]; cbn [run]; unfold tsc_skip_to; rewrite Ec, Et; reflexivity|intros x r E2; discriminate].
      * exists (Term x [] r). split; [exists 1%nat; intros [|f] Hf; [lia|]; cbn [run]; unfold tsc_skip_to; rewrite Ec, Et; reflexivity|]. intros y r' E2. injection E2 as <- <-. split; [reflexivity|]. destruct (G x r eq_refl) as (G1 & _ & _ & G2). splits; auto. exists x, [], r. auto.
    + exists (Term x c' t). split; [exists 1%nat; intros [|f] Hf; [lia|]; cbn [run]; unfold tsc_skip_to; rewrite Ec; reflexivity|]. intros y r' E2. injection E2 as <- <-. split; [reflexivity|]. destruct (G x _ eq_refl) as (G1 & _ & _ & G2). splits; auto. exists x, c', t. auto.
  - subst rest. destruct c as [|x c]; cbn [app] in *.
    + destruct (firstn 32 t) as [|x c] eqn:Ef.
      * assert (t = []) as -> by (destruct t; [reflexivity|discriminate]). exists (Term doc [] []). split; [exists 1%nat; intros [|f] Hf; [lia|]; reflexivity|discriminate].
      * assert (Et : t = x :: c ++ skipn 32 t) by (rewrite <- (firstn_skipn 32 t) at 1; rewrite Ef; reflexivity). exists (Term x c (skipn 32 t)). split.
        -- exists 1%nat. intros [|f] Hf; [lia|]. cbn [run]. unfold tsc_next. rewrite Ef. destruct t; [discriminate|reflexivity].
        -- intros y r E2. rewrite Et in E2. injection E2 as <- <-. split; [reflexivity|]. destruct (G x (c ++ skipn 32 t) Et) as (G1 & _ & _ & G2). splits; auto. exists x, c, (skipn 32 t). auto.
    + exists (Term x c t). split; [exists 1%nat; intros [|f] Hf; [lia|]; reflexivity|]. intros y r E2. injection E2 as <- <-. split; [reflexivity|]. destruct (G x _ eq_refl) as (G1 & _ & _ & G2). splits; auto. exists x, c, t. auto.
Qed.
Lemma masc_ok mx del : forall n doc rest, mx - doc <= Z.of_nat n -> SS rest -> (forall d, In d rest <-> doc < d < mx /\ del d = false) ->
  match rest with [] => fst (masc_next n doc mx del) = false | x :: _ => masc_next n doc mx del = (true, All x mx del) end.
Proof.
  induction n as [|n IH]; intros doc rest Hn HS H.
  - destruct rest as [|x r]; [reflexivity|]. destruct (proj1 (H x) (or_introl eq_refl)). lia.
  - cbn [masc_next]. destruct (Z.ltb_spec doc (mx - 1)) as [Hd|Hd].
    + destruct (del (doc + 1)) eqn:E.
      * apply IH; [lia|exact HS|]. intros d. rewrite H. split; intros (H1 & H2); (split; [|exact H2]); [|lia]. destruct (Z.eq_dec d (doc + 1)) as [->|]; [congruence|lia].
      * assert (Hin : In (doc + 1) rest) by (apply H; split; [lia|exact E]). destruct rest as [|x r]; [destruct Hin|]. destruct Hin as [->|Hin]; [reflexivity|]. apply SS_inv in HS. destruct HS as (_ & HS). specialize (HS _ Hin). destruct (proj1 (H x) (or_introl eq_refl)). lia.
    + destruct rest as [|x r]; [reflexivity|]. destruct (proj1 (H x) (or_introl eq_refl)). lia.
Qed.
Lemma range_list a n : exists l, SS l /\ forall d, In d l <-> a <= d < a + Z.of_nat n.
Proof.
  revert a. induction n as [|n IH]; intros a; [exists []; split; [constructor|intros d; split; [intros []|lia]]|]. destruct (IH (a + 1)) as (l & HS & H). exists (a :: l). split.
  - constructor; [exact HS|]. apply Forall_forall. intros x Hx. apply H in Hx. lia.
  - intros d. cbn [In]. rewrite H. lia.
Qed.
Lemma all_beh mx del : mx <= B -> exists l, Beh true (All (-1) mx del) None l /\ forall d, In d l <-> 0 <= d < mx /\ del d = false.
Proof.
  intros HB. destruct (range_list 0 (Z.to_nat mx)) as (l0 & HS0 & H0). set (l := filter (fun d => negb (del d)) l0). assert (Hl : forall d, In d l <-> 0 <= d < mx /\ del d = false) by (intros d; unfold l; rewrite filter_In, H0, negb_true_iff; split; intros (? & ?); (split; [lia|assumption])).
  exists l. split; [|exact Hl].
  apply (beh_coind true (fun s cur rest => SS rest /\ Forall (fun d => 0 <= d /\ above cur d) rest /\ exists doc, s = All doc mx del /\ (cur = None /\ doc = -1 \/ cur = Some doc /\ 0 <= doc) /\ forall d, In d rest <-> doc < d < mx /\ del d = false)).
  2:{ splits; [apply filter_SS; exact HS0|apply Forall_forall; intros d Hd; apply Hl in Hd; cbn; lia|exists (-1); splits; auto; intros d; rewrite Hl; split; intros (? & ?); (split; [lia|assumption])]. }
  clear. intros s cur rest (H1 & H2 & doc & -> & Hdoc & Hin). splits; auto. intros op Hop. destruct (tgt_facts op true cur rest H1 H2 Hop) as (G0 & _ & G).
  assert (Hr : exists d0, (forall d, In d (tgt op rest) <-> d0 < d < mx /\ del d = false) /\ forall f, run (S f) op (All doc mx del) = Some (masc_next (Z.to_nat (mx - d0)) d0 mx del)).
  { destruct op as [d|]; cbn [tgt].
    - exists (d - 1). split; [|reflexivity]. intros x. rewrite from_in by exact H1. rewrite Hin. cbn [allowed] in Hop. destruct Hop as (_ & Ha & H0). assert (doc < d) by (destruct Hdoc as [(-> & ->)|(-> & ?)]; cbn [above] in Ha; lia). split; [intros ((? & ?) & ?); (split; [lia|assumption])|intros (? & ?); split; [split; [lia|assumption]|lia]].
    - exists doc. split; [exact Hin|reflexivity]. }
  destruct Hr as (d0 & Hin0 & Hrun). pose proof (masc_ok mx del (Z.to_nat (mx - d0)) d0 (tgt op rest) ltac:(lia) G0 Hin0) as Hm. destruct (tgt op rest) as [|x r] eqn:Et.
  - destruct (masc_next (Z.to_nat (mx - d0)) d0 mx del) as (b, s') eqn:Em. cbn [fst] in Hm. subst b. exists s'. split; [exists 1%nat; intros [|f] Hf; [lia|]; apply Hrun|discriminate].
  - exists (All x mx del). rewrite Hm in Hrun. split; [exists 1%nat; intros [|f] Hf; [lia|]; apply Hrun|]. intros y r' E. injection E as <- <-. split; [reflexivity|]. destruct (G x r eq_refl) as (G1 & G2 & G3 & G4). assert (Hx : d0 < x) by (apply (proj1 (Hin0 x)); left; reflexivity). splits; auto. exists x. splits; auto. intros d. specialize (Hin0 d). cbn [In] in Hin0. rewrite Forall_forall in G4. split.
    + intros Hd. pose proof (proj1 Hin0 (or_intror Hd)) as (Hd1 & Hd2). specialize (G4 d Hd). split; [lia|exact Hd2].
    + intros (Hd1 & Hd2). destruct (proj2 Hin0 ltac:(split; [lia|exact Hd2])) as [E|E]; [lia|exact E].
Qed.
(* ---------- scorers that pass calls on *)
Lemma ev_bind op s b s' (F : bool * sc -> option (bool * sc)) t : ev op s b s' -> (forall f, run (S f) op t = do r <- run f op s; F r) -> forall y, F (b, s') = Some y -> exists n, forall f, (n <= f)%nat -> run f op t = Some y.
Proof. intros (n & H) E y Ey. exists (S n). intros [|f] Hf; [lia|]. rewrite E, (H f ltac:(lia)). exact Ey. Qed.
Lemma pass_beh k (mk : Z -> sc -> sc) (ok : sc -> Prop) :
  (forall d s, doc_of (mk d s) = d) ->
  forall t0 s0 cur0 rest0,
  (forall op f, run (S f) op t0 = do r <- run f op s0; Some (fst r, mk (if fst r then doc_of (snd r) else doc_of t0) (snd r))) ->
  (forall d s op f, run (S f) op (mk d s) = do r <- run f op s; Some (fst r, mk (if fst r then doc_of (snd r) else d) (snd r))) ->
  Beh k s0 cur0 rest0 -> Beh k t0 cur0 rest0.
Proof.
  intros Hdoc t0 s0 cur0 rest0 H0 Hmk HB.
  apply (beh_coind k (fun t cur rest => exists s d, Beh k s cur rest /\ forall op f, run (S f) op t = do r <- run f op s; Some (fst r, mk (if fst r then doc_of (snd r) else d) (snd r)))).
  - clear - Hdoc Hmk. intros t cur rest (s & d & HB & Hr). inversion HB as [? ? ? H1 H2 H3]; subst. splits; auto. intros op Hop. destruct (H3 op Hop) as (s' & (n & E) & Hs). exists (mk (if nonnil (tgt op rest) then doc_of s' else d) s'). split.
    + exists (S n). intros [|f] Hf; [lia|]. rewrite Hr, (E f ltac:(lia)). reflexivity.
    + intros x r Ex. rewrite Ex. cbn [nonnil]. rewrite Hdoc. destruct (Hs x r Ex) as (Hx & HB'). split; [exact Hx|]. exists s', (doc_of s'). split; [exact HB'|]. apply Hmk.
  - exists s0, (doc_of t0). split; [exact HB|exact H0].
Qed.
Lemma one_beh k s cur rest : Beh k s cur rest -> Beh k (One 0 s) cur rest.
Proof. intros H. apply (pass_beh k One (fun _ => True)) with (s0 := s); [reflexivity|reflexivity|reflexivity|exact H]. Qed.
Lemma opt_beh k s o cur rest : Beh k s cur rest -> Beh k (Opt 0 s o) cur rest.
Proof. intros H. apply (pass_beh k (fun d s => Opt d s o) (fun _ => True)) with (s0 := s); [reflexivity|reflexivity|reflexivity|exact H]. Qed.
Lemma bsc_beh k rq op pr cur rest : Beh k (create rq op pr) cur rest -> Beh k (Bsc 0 None rq op pr) cur rest.
Proof. intros H. apply (pass_beh k (fun d s => Bsc d (Some s) rq op pr) (fun _ => True)) with (s0 := create rq op pr); [reflexivity|reflexivity|reflexivity|exact H]. Qed.
Lemma non_beh k : Beh k Non None [].
Proof. constructor; [constructor|constructor|]. intros op _. exists Non. destruct op; cbn; (split; [exists 1%nat; intros [|f] Hf; [lia|]; reflexivity|discriminate]). Qed.

(* ---------- ReqExclScorer *)
Definition diff (L X : list Z) : list Z := filter (fun d => negb (existsb (Z.eqb d) X)) L.
Lemma mem_in d l : existsb (Z.eqb d) l = true <-> In d l.
Proof. rewrite existsb_exists. split; [intros (x & H & E); apply Z.eqb_eq in E; subst; exact H|intros H; exists d; split; [exact H|apply Z.eqb_refl]]. Qed.
Lemma diff_in d L X : In d (diff L X) <-> In d L /\ ~ In d X.
Proof. unfold diff. rewrite filter_In, negb_true_iff. pose proof (mem_in d X) as M. destruct (existsb (Z.eqb d) X); split; intros (H1 & H2); (split; [exact H1|]); [discriminate|destruct H2; apply M; reflexivity|intros G; apply M in G; discriminate|reflexivity]. Qed.
Lemma diff_SS L X : SS L -> SS (diff L X).
Proof. apply filter_SS. Qed.
Lemma diff_ext L X Y : (forall d, In d L -> (In d X <-> In d Y)) -> diff L X = diff L Y.
Proof. intros H. apply filter_ext_in. intros d Hd. specialize (H d Hd). rewrite <- !mem_in in H. f_equal. destruct (existsb (Z.eqb d) X), (existsb (Z.eqb d) Y); try reflexivity; [symmetry; apply H; reflexivity|apply H; reflexivity]. Qed.
Lemma diff_nil L : diff L [] = L.
Proof. unfold diff. cbn [existsb negb]. induction L as [|a L IH]; cbn [filter]; [reflexivity|f_equal; exact IH]. Qed.
Lemma diff_keep c L X : ~ In c X -> diff (c :: L) X = c :: diff L X.
Proof. intros H. unfold diff. cbn [filter]. rewrite <- mem_in in H. destruct (existsb (Z.eqb c) X); [destruct (H eq_refl)|reflexivity]. Qed.
Lemma diff_drop c L X : In c X -> diff (c :: L) X = diff L X.
Proof. intros H. unfold diff. cbn [filter]. rewrite <- mem_in in H. rewrite H. reflexivity. Qed.
Lemma from_diff d L X : SS L -> from d (diff L X) = diff (from d L) (from d X) \/ ~ SS X.
Proof.
  intros H. destruct (Forall_Exists_dec (fun _ : Z => True) (fun _ => left I) []) as [_|E]; [|inversion E].
  assert (D : SS X \/ ~ SS X).
  { clear. induction X as [|a X [IH|IH]]; [left; constructor| |right; intros G; inversion G; auto]. destruct (Forall_dec (fun y => a < y) (fun y => Z_lt_dec a y) X) as [G|G]; [left; constructor; auto|right; intros K; inversion K; auto]. }
  destruct D as [D|D]; [left|right; exact D]. apply SS_eq; [apply from_SS, diff_SS, H|apply diff_SS, from_SS, H|]. intros x. rewrite from_in by (apply diff_SS; exact H). rewrite !diff_in, !from_in by assumption. tauto.
Qed.
Lemma from_diff2 d L X : SS L -> from d (diff L X) = diff (from d L) X.
Proof. intros H. apply SS_eq; [apply from_SS, diff_SS, H|apply diff_SS, from_SS, H|]. intros x. rewrite from_in by (apply diff_SS; exact H). rewrite !diff_in, from_in by exact H. tauto. Qed.
Section EXCL.
  Variable k : bool.
  Definition ExR (s : sc) (cur : option Z) (rest : list Z) : Prop :=
    (exists doc r e L X, s = Excl doc true (Some r) (Some e) /\ cur = None /\ Beh k r None L /\ Beh true e None X /\ rest = diff L X) \/
    (exists doc r, s = Excl doc false (Some r) None /\ cur = Some doc /\ Beh k r cur rest) \/
    (exists doc r e L X, s = Excl doc false (Some r) (Some e) /\ cur = Some doc /\ Beh k r cur L /\ Beh true e (Some (doc_of e)) X /\ rest = diff L (doc_of e :: X)).
  Lemma non_excl : forall m L req e X doc, (length L <= m)%nat -> Beh k req (Some (doc_of req)) L -> Beh true e (Some (doc_of e)) X -> 0 <= doc_of req < B ->
    exists s', (exists n, forall f g, (n <= f)%nat -> (n <= g)%nat -> non_excluded (run f) g doc req e = Some (nonnil (diff (doc_of req :: L) (doc_of e :: X)), s')) /\
      forall x r, diff (doc_of req :: L) (doc_of e :: X) = x :: r -> doc_of s' = x /\ ExR s' (Some x) r.
  Proof.
    induction m as [m IH] using lt_wf_ind. intros L req e X doc Hm HR HE H0. set (c := doc_of req) in *. set (xd := doc_of e) in *. destruct (beh_facts _ _ _ _ HR) as (RS & RF). destruct (beh_facts _ _ _ _ HE) as (ES & EF). rewrite Forall_forall in RF, EF. cbn [above] in RF, EF.
    (* once more: the required scorer moves on and the excluded scorer stays *)
    assert (AG : forall ex Y, Beh true ex (Some (doc_of ex)) Y -> doc_of ex = c -> (forall d, In d L -> (In d (xd :: X) <-> In d (c :: Y))) -> In c (xd :: X) ->
      exists s', (exists n, forall f g, (n <= f)%nat -> (n <= g)%nat -> (do r <- run f None req; if fst r then non_excluded (run f) g doc (snd r) ex else Some (false, Excl doc false None (Some ex))) = Some (nonnil (diff (c :: L) (xd :: X)), s')) /\
      forall x r, diff (c :: L) (xd :: X) = x :: r -> doc_of s' = x /\ ExR s' (Some x) r).
    { intros ex Y HY Hex Hiff Hc. rewrite (diff_drop c L _ Hc). rewrite (diff_ext L _ (c :: Y) Hiff). destruct (beh_next _ _ _ _ HR) as (req' & (n1 & E1) & Hq). destruct L as [|c' L'].
      - exists (Excl doc false None (Some ex)). split; [exists n1; intros f g Hf Hg; rewrite (E1 f Hf); reflexivity|discriminate].
      - destruct (Hq c' L' eq_refl) as (Hd & HB). cbn [nonnil] in E1. subst c'. rewrite <- Hex. destruct (IH (length L') ltac:(cbn [length] in Hm; lia) L' req' ex Y doc (le_n _) HB HY ltac:(pose proof (RF (doc_of req') (or_introl eq_refl)); lia)) as (s' & (n2 & E2) & Hs). exists s'. split; [|exact Hs]. exists (Nat.max n1 n2). intros f g Hf Hg. rewrite (E1 f ltac:(lia)). cbn [obind fst snd]. apply E2; lia. }
    destruct (Z.ltb_spec c xd) as [Hlt|Hge].
    - assert (Hn : ~ In c (xd :: X)) by (intros [E|E]; [lia|specialize (EF _ E); lia]). rewrite (diff_keep c L _ Hn). exists (Excl c false (Some req) (Some e)). split.
      + exists 1%nat. intros f [|g] Hf Hg; [lia|]. cbn [non_excluded]. fold c xd. destruct (Z.ltb_spec c xd); [reflexivity|lia].
      + intros x r E. injection E as <- <-. split; [reflexivity|]. right. right. exists c, req, e, L, X. splits; auto.
    - destruct (Z.eq_dec xd c) as [Heq|Hne].
      + destruct (AG e X HE Heq) as (s' & (n & E) & Hs); [rewrite Heq; tauto|left; exact Heq|]. exists s'. split; [|exact Hs]. exists (S n). intros f [|g] Hf Hg; [lia|]. cbn [non_excluded]. fold c xd. destruct (Z.ltb_spec c xd); [lia|]. destruct (Z.ltb_spec xd c); [lia|]. apply E; lia.
      + destruct (beh_skip _ _ _ c HE ltac:(cbn; fold xd; lia) ltac:(lia)) as (e' & (n1 & E1) & He). destruct (from c X) as [|y Y] eqn:EX.
        * assert (HX : forall d, In d X -> d < c) by (intros d Hd; destruct (Z.lt_ge_cases d c); [assumption|]; assert (G : In d (from c X)) by (apply from_in; auto); rewrite EX in G; destruct G).
          assert (ED : diff (c :: L) (xd :: X) = c :: L).
          { rewrite <- (diff_nil (c :: L)) at 2. apply diff_ext. intros d Hd. split; [|intros []]. assert (c <= d) by (destruct Hd as [<-|Hd]; [lia|specialize (RF _ Hd); lia]). intros [E|E]; [lia|specialize (HX _ E); lia]. }
          rewrite ED. exists (Excl c false (Some req) None). split.
          -- exists (S n1). intros f [|g] Hf Hg; [lia|]. cbn [non_excluded]. fold c xd. destruct (Z.ltb_spec c xd); [lia|]. destruct (Z.ltb_spec xd c); [|lia]. rewrite (E1 f ltac:(lia)). reflexivity.
          -- intros x r E. injection E as <- <-. split; [reflexivity|]. right. left. exists c, req. auto.
        * destruct (He y Y eq_refl) as (Hy & HY). assert (HyX : forall d, c <= d -> (In d X <-> d = y \/ In d Y)) by (intros d Hd; transitivity (In d (from c X)); [rewrite from_in by exact ES; tauto|rewrite EX; cbn [In]; intuition]). assert (Hcy : c <= y) by (assert (G : In y (from c X)) by (rewrite EX; left; reflexivity); apply from_in in G; tauto).
          rewrite <- Hy in HY. destruct (Z.ltb_spec c y) as [Hc|Hc].
          -- destruct (beh_facts _ _ _ _ HY) as (YS & YF). rewrite Forall_forall in YF. cbn [above] in YF. assert (Hn : ~ In c (xd :: X)) by (intros [E|E]; [lia|]; apply HyX in E; [|lia]; destruct E as [E|E]; [lia|specialize (YF _ E); lia]). rewrite (diff_keep c L _ Hn). exists (Excl c false (Some req) (Some e')). split.
             ++ exists (S n1). intros f [|g] Hf Hg; [lia|]. cbn [non_excluded]. fold c xd. destruct (Z.ltb_spec c xd); [lia|]. destruct (Z.ltb_spec xd c); [|lia]. rewrite (E1 f ltac:(lia)). cbn [obind nonnil fst snd]. rewrite Hy. destruct (Z.ltb_spec c y); [reflexivity|lia].
             ++ intros x r E. injection E as <- <-. split; [reflexivity|]. right. right. exists c, req, e', L, Y. splits; auto. apply diff_ext. intros d Hd. specialize (RF _ Hd). cbn [In]. rewrite HyX by lia. rewrite Hy. intuition lia.
          -- assert (y = c) by lia. destruct (AG e' Y HY ltac:(lia)) as (s' & (n & E) & Hs).
             ++ intros d Hd. specialize (RF _ Hd). cbn [In]. rewrite HyX by lia. intuition lia.
             ++ right. apply HyX; [lia|left; lia].
             ++ exists s'. split; [|exact Hs]. exists (S (Nat.max n n1)). intros f [|g] Hf Hg; [lia|]. cbn [non_excluded]. fold c xd. destruct (Z.ltb_spec c xd); [lia|]. destruct (Z.ltb_spec xd c); [|lia]. rewrite (E1 f ltac:(lia)). cbn [obind nonnil fst snd]. rewrite Hy. destruct (Z.ltb_spec c y); [lia|]. apply E; lia.
  Qed.
  Lemma excl_step r e L X ex cur doc op b : (* after the excluded scorer has been placed *)
    Beh k r cur L -> allowed k cur op ->
    match ex with None => X = [] | Some e => Beh true e (Some (doc_of e)) (tl X) /\ X = doc_of e :: tl X end -> e = ex ->
    exists s', (exists n, forall f g, (n <= f)%nat -> (n <= g)%nat ->
      (do r' <- run f op r; match ex with None => Some (fst r', Excl (if fst r' then doc_of (snd r') else doc) false (if b && negb (fst r') then None else Some (snd r')) None) | Some e => if fst r' then non_excluded (run f) g doc (snd r') e else Some (false, Excl doc false None ex) end) = Some (nonnil (diff (tgt op L) X), s')) /\
      forall x t, diff (tgt op L) X = x :: t -> doc_of s' = x /\ ExR s' (Some x) t.
  Proof.
    intros HR Hop HX _. inversion HR as [? ? ? H1 H2 H3]; subst. destruct (H3 op Hop) as (r' & (n1 & E1) & Hr). destruct (tgt_facts op k cur L H1 H2 Hop) as (_ & _ & G). destruct (tgt op L) as [|c L'] eqn:ET.
    - destruct ex as [e0|].
      + exists (Excl doc false None (Some e0)). split; [exists n1; intros f g Hf Hg; rewrite (E1 f Hf); reflexivity|discriminate].
      + exists (Excl doc false (if b then None else Some r') None). split; [exists n1; intros f g Hf Hg; rewrite (E1 f Hf); cbn [obind nonnil fst snd negb]; rewrite andb_true_r; reflexivity|discriminate].
    - destruct (Hr c L' eq_refl) as (Hc & HB). destruct (G c L' eq_refl) as (_ & Hc1 & Hc2 & _). assert (Hc0 : 0 <= c < B) by (destruct cur; cbn [above] in Hc2; lia). cbn [nonnil] in E1. destruct ex as [e0|].
      + destruct HX as (HE & EX). rewrite EX. subst c. destruct (non_excl (length L') L' r' e0 (tl X) doc (le_n _) HB HE Hc0) as (s' & (n2 & E2) & Hs). exists s'. split; [|exact Hs]. exists (Nat.max n1 n2). intros f g Hf Hg. rewrite (E1 f ltac:(lia)). cbn [obind fst snd]. apply E2; lia.
      + subst X. rewrite diff_nil. exists (Excl c false (Some r') None). split.
        * exists n1. intros f g Hf Hg. rewrite (E1 f Hf). cbn [obind nonnil fst snd negb]. rewrite andb_false_r, Hc. reflexivity.
        * intros x t E. injection E as <- <-. split; [reflexivity|]. right. left. exists c, r'. auto.
  Qed.
  Lemma excl_next_as f g doc ft r ex : excl_next (run f) g doc ft (Some r) ex =
    do e <- (if ft then do e <- ex; do r <- run f None e; Some (if fst r then Some (snd r) else None) else Some ex);
    do r' <- run f None r; match e with None => Some (fst r', Excl (if fst r' then doc_of (snd r') else doc) false (if true && negb (fst r') then None else Some (snd r')) None) | Some e0 => if fst r' then non_excluded (run f) g doc (snd r') e0 else Some (false, Excl doc false None e) end.
  Proof.
    unfold excl_next. destruct (if ft then _ else _) as [e|]; [|reflexivity]. destruct (run f None r) as [(b, r')|]; [|reflexivity]. cbn [obind fst snd]. destruct b, e; reflexivity.
  Qed.
  Lemma excl_skip_as f g doc ft r ex d : excl_skip_to (run f) g doc ft (Some r) ex d =
    do e <- (if ft then do e <- ex; do r <- run f (Some d) e; Some (if fst r then Some (snd r) else None) else Some ex);
    do r' <- run f (Some d) r; match e with None => Some (fst r', Excl (if fst r' then doc_of (snd r') else doc) false (if false && negb (fst r') then None else Some (snd r')) None) | Some e0 => if fst r' then non_excluded (run f) g doc (snd r') e0 else Some (false, Excl doc false None e) end.
  Proof. reflexivity. Qed.
  Lemma excl_run f op doc ft r ex : run (S f) op (Excl doc ft (Some r) ex) =
    do e <- (if ft then do e <- ex; do r <- run f op e; Some (if fst r then Some (snd r) else None) else Some ex);
    do r' <- run f op r; match e with None => Some (fst r', Excl (if fst r' then doc_of (snd r') else doc) false (if (match op with None => true | _ => false end) && negb (fst r') then None else Some (snd r')) None) | Some e0 => if fst r' then non_excluded (run f) f doc (snd r') e0 else Some (false, Excl doc false None e) end.
  Proof. destruct op as [d|]; cbn [run]; [apply excl_skip_as|apply excl_next_as]. Qed.
  Lemma excl_ok s cur rest : ExR s cur rest -> Beh k s cur rest.
  Proof.
    apply beh_coind. clear. intros s cur rest H. destruct H as [(doc & r & e & L & X & -> & -> & HR & HE & ->)|[(doc & r & -> & -> & HR)|(doc & r & e & L & X & -> & -> & HR & HE & ->)]].
    - destruct (beh_facts _ _ _ _ HR) as (RS & RF). destruct (beh_facts _ _ _ _ HE) as (ES & EF). splits; [apply diff_SS; exact RS|apply Forall_forall; intros d Hd; apply diff_in in Hd; rewrite Forall_forall in RF; apply RF; tauto|]. intros op Hop.
      assert (Hop' : allowed true None op) by (destruct op; cbn in *; tauto). inversion HE as [? ? ? _ _ H3]; subst. destruct (H3 op Hop') as (e' & (n1 & E1) & He).
      assert (ET : tgt op (diff L X) = diff (tgt op L) (tgt op X)).
      { destruct op as [d|]; [|reflexivity]. cbn [tgt]. destruct (from_diff d L X RS) as [E|E]; [exact E|destruct (E ES)]. }
      rewrite ET. set (ex := if nonnil (tgt op X) then Some e' else None).
      destruct (excl_step r ex L (tgt op X) ex None doc op (match op with None => true | _ => false end) HR Hop) as (s' & (n2 & E2) & Hs).
      + unfold ex. destruct (tgt op X) as [|x X'] eqn:EX; cbn [nonnil]; [reflexivity|]. destruct (He x X' eq_refl) as (Hx & HB). subst x. cbn [tl]. auto.
      + reflexivity.
      + exists s'. split; [|exact Hs]. exists (S (Nat.max n1 n2)). intros [|f] Hf; [lia|]. rewrite excl_run. cbn [obind]. rewrite (E1 f ltac:(lia)). cbn [obind fst snd]. fold ex. apply (E2 f f); lia.
    - destruct (beh_facts _ _ _ _ HR) as (RS & RF). splits; auto. intros op Hop. destruct (excl_step r None rest [] None (Some doc) doc op (match op with None => true | _ => false end) HR Hop eq_refl eq_refl) as (s' & (n2 & E2) & Hs). rewrite diff_nil in *. exists s'. split; [|exact Hs]. exists (S n2). intros [|f] Hf; [lia|]. rewrite excl_run. apply (E2 f f); lia.
    - destruct (beh_facts _ _ _ _ HR) as (RS & RF). splits; [apply diff_SS; exact RS|apply Forall_forall; intros d Hd; apply diff_in in Hd; rewrite Forall_forall in RF; apply RF; tauto|]. intros op Hop.
      assert (ET : tgt op (diff L (doc_of e :: X)) = diff (tgt op L) (doc_of e :: X)) by (destruct op as [d|]; [apply from_diff2; exact RS|reflexivity]). rewrite ET.
      destruct (excl_step r (Some e) L (doc_of e :: X) (Some e) (Some doc) doc op (match op with None => true | _ => false end) HR Hop (conj HE eq_refl) eq_refl) as (s' & (n2 & E2) & Hs). exists s'. split; [|exact Hs]. exists (S n2). intros [|f] Hf; [lia|]. rewrite excl_run. apply (E2 f f); lia.
  Qed.
End EXCL.
Lemma excl_beh k r e L X : Beh k r None L -> Beh true e None X -> Beh k (Excl 0 true (Some r) (Some e)) None (diff L X).
Proof. intros HR HE. apply excl_ok. left. exists 0, r, e, L, X. auto. Qed.
End BOUND.
Arguments beh_coind {B}. Arguments beh_weak {B}. Arguments beh_facts {B}. Arguments beh_next {B}. Arguments beh_skip {B}. Arguments tgt_facts {B}. Arguments term_beh {B}. Arguments all_beh {B}. Arguments one_beh {B}. Arguments opt_beh {B}. Arguments bsc_beh {B}. Arguments non_beh {B}. Arguments excl_beh {B}.
