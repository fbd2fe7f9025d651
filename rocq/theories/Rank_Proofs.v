(* The contract of scorers with scores, and the scorers that pass calls on. *)
From Coq Require Import QArith.Qcanon Sorting.Permutation Sorting.Sorted.
From Verif Require Import Util PQueue_Model PQueue_Spec PQueue_Proofs Query_Model Rank_Model Rank_Spec.
From Verif Require Bool_Model Bool_Proofs.
Open Scope Z_scope.
Ltac splits := match goal with |- _ /\ _ => split; [|splits] | _ => idtac end.
Ltac s3 := split; [|split].
Ltac stands := red; s3.
Notation SS := (StronglySorted Z.lt).
Notation from := Rank_Model.fromz.
Lemma from_same d l : from d l = Bool_Model.from d l.
Proof. induction l as [|x l IH]; cbn [fromz Bool_Model.from]; [reflexivity|]. destruct (x <? d); [exact IH|reflexivity]. Qed.
Lemma from_in d l x : SS l -> In x (from d l) <-> In x l /\ d <= x.
Proof. rewrite from_same. apply Bool_Proofs.from_in. Qed.
Lemma from_SS d l : SS l -> SS (from d l).
Proof. rewrite from_same. apply Bool_Proofs.from_SS. Qed.
Notation SS_inv := Bool_Proofs.SS_inv.
Notation SS_eq := Bool_Proofs.SS_eq.
Notation SS_app := Bool_Proofs.SS_app.
Notation filter_SS := Bool_Proofs.filter_SS.
Notation diff := Bool_Proofs.diff.
Notation mem_in := Bool_Proofs.mem_in.
Notation diff_in := Bool_Proofs.diff_in.
Notation diff_SS := Bool_Proofs.diff_SS.
Notation diff_ext := Bool_Proofs.diff_ext.
Notation diff_nil := Bool_Proofs.diff_nil.
Notation diff_keep := Bool_Proofs.diff_keep.
Notation diff_drop := Bool_Proofs.diff_drop.
Lemma from_diff d L X : SS L -> SS X -> from d (diff L X) = diff (from d L) (from d X).
Proof. rewrite !from_same. intros H1 H2. destruct (Bool_Proofs.from_diff d L X H1) as [E|E]; [exact E|destruct (E H2)]. Qed.
Lemma from_diff2 d L X : SS L -> from d (diff L X) = diff (from d L) X.
Proof. rewrite !from_same. apply Bool_Proofs.from_diff2. Qed.
Lemma some_inj {A} (x y : A) : Some x = Some y -> x = y.
Proof. congruence. Qed.

Section BOUND.
Variable sm : sim.
Variable B : Z.   (* documents are below B *)
Lemma run_S f op s : run sm (S f) op s = step (run sm f) (score sm f) f op s.
Proof. reflexivity. Qed.
Lemma score_S f s : score sm (S f) s = score_step (run sm f) (score sm f) sm s.
Proof. reflexivity. Qed.
Definition ev (op : option Z) (s : sc) (b : bool) (s' : sc) : Prop := exists n, forall f, (n <= f)%nat -> run sm f op s = Some (b, s').
Definition evs (s : sc) (v : Qc * nat) (s' : sc) : Prop := exists n, forall f, (n <= f)%nat -> score sm f s = Some (v, s').
Definition above (cur : option Z) (d : Z) : Prop := match cur with None => d < B | Some c => c < d < B end.
Definition tgt (op : option Z) (rest : list Z) : list Z := match op with None => rest | Some d => from d rest end.
Definition nonnil {A} (l : list A) : bool := match l with [] => false | _ => true end.
Definition allowed (skip : bool) (cur : option Z) (op : option Z) : Prop := match op with None => True | Some d => skip = true /\ above cur d /\ 0 <= d end.
(* it stands at x with r to follow, can be scored, and goes on whether or not it is *)
Definition StandR (sf : Z -> Qc * nat) (Rl : sc -> option Z -> list Z -> Prop) (s : sc) (x : Z) (r : list Z) : Prop :=
  doc_of s = x /\ Rl s (Some x) r /\ exists s'', evs s (sf x) s'' /\ doc_of s'' = x /\ Rl s'' (Some x) r.
Inductive Beh (sf : Z -> Qc * nat) (k : bool) : sc -> option Z -> list Z -> Prop :=
| Beh_intro s cur rest : SS rest -> Forall (fun d => 0 <= d /\ above cur d) rest ->
    (forall op, allowed k cur op -> exists s', ev op s (nonnil (tgt op rest)) s' /\ forall x r, tgt op rest = x :: r ->
       doc_of s' = x /\ Beh sf k s' (Some x) r /\ exists s'', evs s' (sf x) s'' /\ doc_of s'' = x /\ Beh sf k s'' (Some x) r) -> Beh sf k s cur rest.
Notation Stand sf k := (StandR sf (Beh sf k)).
Lemma tgt_shorter op rest x r : tgt op rest = x :: r -> (length r < length rest)%nat.
Proof.
  assert (G : forall d l, (length (from d l) <= length l)%nat) by (intros d l; induction l as [|a l IH]; cbn [fromz]; [lia|]; destruct (a <? d); cbn [length]; lia). destruct op as [d|]; cbn [tgt]; intros E; [specialize (G d rest); rewrite E in G; cbn [length] in G; lia|subst; cbn; lia].
Qed.
Lemma beh_coind sf k (Rl : sc -> option Z -> list Z -> Prop) :
  (forall s cur rest, Rl s cur rest -> SS rest /\ Forall (fun d => 0 <= d /\ above cur d) rest /\
    forall op, allowed k cur op -> exists s', ev op s (nonnil (tgt op rest)) s' /\ forall x r, tgt op rest = x :: r -> StandR sf Rl s' x r) ->
  forall s cur rest, Rl s cur rest -> Beh sf k s cur rest.
Proof.
  intros H. assert (G : forall n s cur rest, (length rest <= n)%nat -> Rl s cur rest -> Beh sf k s cur rest).
  { induction n as [|n IH]; intros s cur rest Hn HR; destruct (H s cur rest HR) as (H1 & H2 & H3); constructor; auto; intros op Hop; destruct (H3 op Hop) as (s' & E & Hs); exists s'; (split; [exact E|]); intros x r Ex; destruct (Hs x r Ex) as (Hd & HR' & s'' & E2 & Hd2 & HR2); pose proof (tgt_shorter _ _ _ _ Ex); (split; [exact Hd|]); [lia|]. split; [apply IH; [lia|exact HR']|]. exists s''. splits; auto. apply IH; [lia|exact HR2]. }
  intros s cur rest HR. apply (G (length rest)); auto.
Qed.
Lemma beh_open sf k s cur rest : Beh sf k s cur rest -> SS rest /\ Forall (fun d => 0 <= d /\ above cur d) rest /\
    forall op, allowed k cur op -> exists s', ev op s (nonnil (tgt op rest)) s' /\ forall x r, tgt op rest = x :: r -> Stand sf k s' x r.
Proof. intros H. inversion H; subst. splits; auto. Qed.
Lemma beh_facts sf k s cur rest : Beh sf k s cur rest -> SS rest /\ Forall (fun d => 0 <= d /\ above cur d) rest.
Proof. intros H. inversion H; subst. auto. Qed.
Lemma beh_next sf k s cur rest : Beh sf k s cur rest -> exists s', ev None s (nonnil rest) s' /\ forall x r, rest = x :: r -> Stand sf k s' x r.
Proof. intros H. destruct (beh_open _ _ _ _ _ H) as (H1 & H2 & H3). exact (H3 None I). Qed.
Lemma beh_skip sf s cur rest d : Beh sf true s cur rest -> above cur d -> 0 <= d -> exists s', ev (Some d) s (nonnil (from d rest)) s' /\ forall x r, from d rest = x :: r -> Stand sf true s' x r.
Proof. intros H Hd H0. destruct (beh_open _ _ _ _ _ H) as (H1 & H2 & H3). exact (H3 (Some d) (conj eq_refl (conj Hd H0))). Qed.
Lemma tgt_in op rest x : SS rest -> In x (tgt op rest) -> In x rest.
Proof. destruct op as [d|]; cbn [tgt]; [|auto]. intros HS Hx. apply from_in in Hx; [tauto|exact HS]. Qed.
Lemma tgt_facts op k cur rest : SS rest -> Forall (fun d => 0 <= d /\ above cur d) rest -> allowed k cur op -> SS (tgt op rest) /\ Forall (fun d => 0 <= d /\ above cur d) (tgt op rest) /\ forall x r, tgt op rest = x :: r -> SS r /\ 0 <= x /\ above cur x /\ Forall (fun d => 0 <= d /\ x < d < B) r.
Proof.
  intros H1 H2 _. assert (G1 : SS (tgt op rest)) by (destruct op; [apply from_SS|]; exact H1). assert (G2 : Forall (fun d => 0 <= d /\ above cur d) (tgt op rest)).
  { apply Forall_forall. intros x Hx. apply tgt_in in Hx; [|exact H1]. rewrite Forall_forall in H2. apply H2. exact Hx. }
  splits; auto. intros x r E. rewrite E in G1, G2. apply SS_inv in G1. destruct G1 as (G1 & G3). inversion G2 as [|? ? (G4 & G5) G6]; subst. splits; auto. rewrite Forall_forall in *. intros y Hy. specialize (G6 y Hy). specialize (G3 y Hy). destruct cur; cbn [above] in G6; lia.
Qed.
Lemma stand_mono sf sf' (R1 R2 : sc -> option Z -> list Z -> Prop) s x r : sf x = sf' x -> (forall t, R1 t (Some x) r -> R2 t (Some x) r) -> StandR sf R1 s x r -> StandR sf' R2 s x r.
Proof. intros E H (H1 & H2 & s'' & H3 & H4 & H5). stands; auto. exists s''. rewrite <- E. auto. Qed.
Lemma beh_ext sf sf' k s cur rest : Beh sf k s cur rest -> (forall x, In x rest -> sf x = sf' x) -> Beh sf' k s cur rest.
Proof.
  intros H E. apply (beh_coind sf' k (fun s cur rest => Beh sf k s cur rest /\ forall x, In x rest -> sf x = sf' x)); [|auto]. clear. intros s cur rest (H & E). destruct (beh_open _ _ _ _ _ H) as (H1 & H2 & H3). splits; auto. intros op Hop. destruct (H3 op Hop) as (s' & Hs & Hx). exists s'. split; [exact Hs|]. intros x r Et.
  assert (Hin : forall y, In y (x :: r) -> In y rest) by (intros y Hy; rewrite <- Et in Hy; apply (tgt_in op); assumption). apply (stand_mono sf sf' (Beh sf k)); [apply E, Hin; left; reflexivity| |auto]. intros t Ht. split; [exact Ht|]. intros y Hy. apply E, Hin. right. exact Hy.
Qed.
Lemma beh_weak sf s cur rest : Beh sf true s cur rest -> forall k, Beh sf k s cur rest.
Proof.
  intros H k. apply (beh_coind sf k (Beh sf true)); [|exact H]. clear. intros s cur rest H. destruct (beh_open _ _ _ _ _ H) as (H1 & H2 & H3). splits; auto. intros op Hop. apply H3. destruct op as [d|]; cbn [allowed] in *; tauto.
Qed.
Lemma stand_beh sf k s x r : Stand sf k s x r -> doc_of s = x /\ Beh sf k s (Some x) r.
Proof. intros (H1 & H2 & _). auto. Qed.
Lemma ev_1 op s b s' : (forall f, run sm (S f) op s = Some (b, s')) -> ev op s b s'.
Proof. intros H. exists 1%nat. intros [|f] Hf; [lia|apply H]. Qed.
Lemma evs_1 s v s' : (forall f, score sm (S f) s = Some (v, s')) -> evs s v s'.
Proof. intros H. exists 1%nat. intros [|f] Hf; [lia|apply H]. Qed.

(* ---------- leaves *)
Lemma fromp_fst d l : map fst (fromp d l) = from d (map fst l).
Proof. induction l as [|x l IH]; cbn [fromp fromz map]; [reflexivity|]. destruct (fst x <? d); [exact IH|reflexivity]. Qed.
Lemma fromp_tail d l : exists p, l = p ++ fromp d l.
Proof. induction l as [|x l (p & IH)]; cbn [fromp]; [exists []; reflexivity|]. destruct (fst x <? d); [exists (x :: p); cbn; f_equal; exact IH|exists []; reflexivity]. Qed.
Lemma fromp_app d c t : fromp d (c ++ t) = match fromp d c with [] => fromp d t | y => y ++ t end.
Proof. induction c as [|x c IH]; cbn [app fromp]; [reflexivity|]. destruct (fst x <? d); [exact IH|reflexivity]. Qed.
Lemma freq_at l p x q : l = p ++ x :: q -> SS (map fst l) -> freq_of l (fst x) = snd x.
Proof.
  intros -> H. unfold freq_of. induction p as [|y p IH]; cbn [app find]; [rewrite Z.eqb_refl; reflexivity|]. cbn [app map] in H. apply SS_inv in H. destruct H as (H & G). destruct (Z.eqb_spec (fst y) (fst x)) as [E|E]; [|apply IH; exact H]. specialize (G (fst x)). rewrite map_app in G. assert (fst y < fst x) by (apply G; apply in_or_app; right; left; reflexivity). lia.
Qed.
Lemma tsc_score_ok w nm doc fr : 0 <= fr -> tsc_score sm w nm doc fr = Some (tf sm fr * w * nm doc)%Qc.
Proof.
  intros H. unfold tsc_score. destruct (Z.ltb_spec fr 32) as [H1|H1]; [|reflexivity]. destruct (Z.ltb_spec fr 0); [lia|]. unfold score_cache. rewrite nth_error_map. assert (E : nth_error (seq 0 32) (Z.to_nat fr) = Some (Z.to_nat fr)).
  { rewrite (nth_error_nth' _ 0%nat) by (rewrite seq_length; lia). rewrite seq_nth by lia. reflexivity. }
  rewrite E. cbn [option_map obind]. rewrite Z2Nat.id by lia. reflexivity.
Qed.
Lemma term_beh w nm l : SS (map fst l) -> Forall (fun p => 0 <= fst p < B /\ 0 <= snd p) l -> Beh (fun x => ((tf sm (freq_of l x) * w * nm x)%Qc, 0%nat)) true (Term w nm 0 0 [] l) None (map fst l).
Proof.
  intros HS HF. set (sf := fun x => ((tf sm (freq_of l x) * w * nm x)%Qc, 0%nat)).
  apply (beh_coind sf true (fun s cur rest => SS rest /\ Forall (fun d => 0 <= d /\ above cur d) rest /\ exists doc fr p c t, s = Term w nm doc fr c t /\ rest = map fst (c ++ t) /\ l = p ++ c ++ t)).
  2:{ splits; auto; [|exists 0, 0, [], [], l; auto]. apply Forall_forall. intros d Hd. apply in_map_iff in Hd. destruct Hd as (x & <- & Hx). rewrite Forall_forall in HF. specialize (HF x Hx). cbn. lia. }
  intros s cur rest (H1 & H2 & doc & fr & p & c & t & -> & Er & El). splits; auto. intros op Hop. destruct (tgt_facts op true cur rest H1 H2 Hop) as (_ & _ & G).
  assert (FIN : forall x c' t', (exists p', l = p' ++ x :: c' ++ t') -> tgt op rest = fst x :: map fst (c' ++ t') ->
     StandR sf (fun s cur rest => SS rest /\ Forall (fun d => 0 <= d /\ above cur d) rest /\ exists doc fr p c t, s = Term w nm doc fr c t /\ rest = map fst (c ++ t) /\ l = p ++ c ++ t) (Term w nm (fst x) (snd x) c' t') (fst x) (map fst (c' ++ t'))).
  { intros x c' t' (p' & El') Et. destruct (G (fst x) _ Et) as (G1 & _ & _ & G2). assert (GG : SS (map fst (c' ++ t')) /\ Forall (fun d => 0 <= d /\ above (Some (fst x)) d) (map fst (c' ++ t')) /\ exists doc0 fr0 p0 c0 t0, Term w nm (fst x) (snd x) c' t' = Term w nm doc0 fr0 c0 t0 /\ map fst (c' ++ t') = map fst (c0 ++ t0) /\ l = p0 ++ c0 ++ t0).
    { splits; auto. exists (fst x), (snd x), (p' ++ [x]), c', t'. splits; auto. rewrite <- app_assoc. exact El'. }
    stands; [reflexivity|exact GG|]. exists (Term w nm (fst x) (snd x) c' t'). s3; [|reflexivity|exact GG]. apply evs_1. intros f. rewrite score_S. cbn [score_step]. assert (Hx : 0 <= snd x) by (rewrite Forall_forall in HF; apply (HF x); rewrite El'; apply in_or_app; right; left; reflexivity). rewrite tsc_score_ok by exact Hx. cbn [obind]. unfold sf. rewrite (freq_at l p' x _ El' HS). reflexivity. }
  destruct op as [d|]; cbn [tgt] in *.
  - subst rest. rewrite <- fromp_fst, fromp_app in *. destruct (fromp_tail d c) as (pc & Ec0). destruct (fromp_tail d t) as (pt & Et0). destruct (fromp d c) as [|x c'] eqn:Ec.
    + destruct (fromp d t) as [|x r] eqn:Et.
      * exists (Term w nm doc fr [] []). split; [apply ev_1; intros f; rewrite run_S; cbn [step]; unfold tsc_skip_to; rewrite Ec, Et; reflexivity|intros x r E2; discriminate].
      * exists (Term w nm (fst x) (snd x) [] r). split; [apply ev_1; intros f; rewrite run_S; cbn [step]; unfold tsc_skip_to; rewrite Ec, Et; reflexivity|]. intros y r' E2. cbn [map] in E2. injection E2 as <- <-. apply (FIN x [] r); [|reflexivity]. exists (p ++ c ++ pt). rewrite El, Et0, <- !app_assoc. reflexivity.
    + exists (Term w nm (fst x) (snd x) c' t). split; [apply ev_1; intros f; rewrite run_S; cbn [step]; unfold tsc_skip_to; rewrite Ec; reflexivity|]. intros y r' E2. cbn [app map] in E2. injection E2 as <- <-. apply (FIN x c' t); [|reflexivity]. exists (p ++ pc). rewrite El, Ec0, <- !app_assoc. reflexivity.
  - subst rest. destruct c as [|x c]; cbn [app map] in *.
    + destruct (firstn 32 t) as [|x c] eqn:Ef.
      * assert (t = []) as -> by (destruct t; [reflexivity|discriminate]). exists (Term w nm doc fr [] []). split; [apply ev_1; intros f; reflexivity|discriminate].
      * assert (Et : t = x :: c ++ skipn 32 t) by (rewrite <- (firstn_skipn 32 t) at 1; rewrite Ef; reflexivity). exists (Term w nm (fst x) (snd x) c (skipn 32 t)). split.
        -- apply ev_1. intros f. rewrite run_S. cbn [step]. unfold tsc_next. rewrite Ef. destruct t; [discriminate|reflexivity].
        -- intros y r E2. rewrite Et in E2. cbn [map] in E2. injection E2 as <- <-. apply FIN; [exists p; rewrite El; f_equal; exact Et|transitivity (map fst (x :: c ++ skipn 32 t)); [f_equal; exact Et|reflexivity]].
    + exists (Term w nm (fst x) (snd x) c t). split; [apply ev_1; intros f; reflexivity|]. intros y r E2. injection E2 as <- <-. apply FIN; [exists p; exact El|reflexivity].
Qed.
Lemma bits_beh w doc0 l : SS l -> Forall (fun d => 0 <= d < B) l -> Beh (fun _ => (w, 0%nat)) true (Bits w doc0 l) None l.
Proof.
  intros HS HF. apply (beh_coind _ true (fun s cur rest => SS rest /\ Forall (fun d => 0 <= d /\ above cur d) rest /\ exists doc, s = Bits w doc rest)).
  2:{ splits; [exact HS|eapply Forall_impl; [|exact HF]; cbn; lia|eauto]. }
  clear. intros s cur rest (H1 & H2 & doc & ->). splits; auto. intros op Hop. destruct (tgt_facts op true cur rest H1 H2 Hop) as (_ & _ & G). exists (snd (cssc_move w (tgt op rest))). split; [apply ev_1; intros f; rewrite run_S; destruct op as [d|]; cbn [step tgt]; [destruct (from d rest)|destruct rest]; reflexivity|]. intros x r E. rewrite E. cbn [cssc_move snd]. destruct (G x r E) as (G1 & _ & _ & G2). stands; [reflexivity|splits; eauto|]. exists (Bits w x r). s3; [apply evs_1; reflexivity|reflexivity|splits; eauto].
Qed.
Lemma masc_ok w mx del : forall n doc rest, mx - doc <= Z.of_nat n -> SS rest -> (forall d, In d rest <-> doc < d < mx /\ del d = false) ->
  match rest with [] => fst (masc_next w n doc mx del) = false | x :: _ => masc_next w n doc mx del = (true, All w x mx del) end.
Proof.
  induction n as [|n IH]; intros doc rest Hn HS H.
  - destruct rest as [|x r]; [reflexivity|]. destruct (proj1 (H x) (or_introl eq_refl)). lia.
  - cbn [masc_next]. destruct (Z.ltb_spec doc (mx - 1)) as [Hd|Hd].
    + destruct (del (doc + 1)) eqn:E.
      * apply IH; [lia|exact HS|]. intros d. rewrite H. split; intros (H1 & H2); (split; [|exact H2]); [|lia]. destruct (Z.eq_dec d (doc + 1)) as [->|]; [congruence|lia].
      * assert (Hin : In (doc + 1) rest) by (apply H; split; [lia|exact E]). destruct rest as [|x r]; [destruct Hin|]. destruct Hin as [->|Hin]; [reflexivity|]. apply SS_inv in HS. destruct HS as (_ & HS). specialize (HS _ Hin). destruct (proj1 (H x) (or_introl eq_refl)). lia.
    + destruct rest as [|x r]; [reflexivity|]. destruct (proj1 (H x) (or_introl eq_refl)). lia.
Qed.
Lemma all_beh w mx del : mx <= B -> exists l, Beh (fun _ => (w, 0%nat)) true (All w (-1) mx del) None l /\ forall d, In d l <-> 0 <= d < mx /\ del d = false.
Proof.
  intros HB. destruct (Bool_Proofs.range_list 0 (Z.to_nat mx)) as (l0 & HS0 & H0). set (l := filter (fun d => negb (del d)) l0). assert (Hl : forall d, In d l <-> 0 <= d < mx /\ del d = false) by (intros d; unfold l; rewrite filter_In, H0, negb_true_iff; split; intros (? & ?); (split; [lia|assumption])).
  exists l. split; [|exact Hl].
  apply (beh_coind _ true (fun s cur rest => SS rest /\ Forall (fun d => 0 <= d /\ above cur d) rest /\ exists doc, s = All w doc mx del /\ (cur = None /\ doc = -1 \/ cur = Some doc /\ 0 <= doc) /\ forall d, In d rest <-> doc < d < mx /\ del d = false)).
  2:{ splits; [apply filter_SS; exact HS0|apply Forall_forall; intros d Hd; apply Hl in Hd; cbn; lia|exists (-1); splits; auto; intros d; rewrite Hl; split; intros (? & ?); (split; [lia|assumption])]. }
  clear. intros s cur rest (H1 & H2 & doc & -> & Hdoc & Hin). splits; auto. intros op Hop. destruct (tgt_facts op true cur rest H1 H2 Hop) as (G0 & _ & G).
  assert (Hr : exists d0, (forall d, In d (tgt op rest) <-> d0 < d < mx /\ del d = false) /\ forall f, run sm (S f) op (All w doc mx del) = Some (masc_next w (Z.to_nat (mx - d0)) d0 mx del)).
  { destruct op as [d|]; cbn [tgt].
    - exists (d - 1). split; [|reflexivity]. intros x. rewrite from_in by exact H1. rewrite Hin. cbn [allowed] in Hop. destruct Hop as (_ & Ha & H0). assert (doc < d) by (destruct Hdoc as [(-> & ->)|(-> & ?)]; cbn [above] in Ha; lia). split; [intros ((? & ?) & ?); (split; [lia|assumption])|intros (? & ?); split; [split; [lia|assumption]|lia]].
    - exists doc. split; [exact Hin|reflexivity]. }
  destruct Hr as (d0 & Hin0 & Hrun). pose proof (masc_ok w mx del (Z.to_nat (mx - d0)) d0 (tgt op rest) ltac:(lia) G0 Hin0) as Hm. destruct (tgt op rest) as [|x r] eqn:Et.
  - destruct (masc_next w (Z.to_nat (mx - d0)) d0 mx del) as (b, s') eqn:Em. cbn [fst] in Hm. subst b. exists s'. split; [apply ev_1; intros f; apply Hrun|discriminate].
  - exists (All w x mx del). rewrite Hm in Hrun. split; [apply ev_1; intros f; apply Hrun|]. intros y r' E. injection E as <- <-. destruct (G x r eq_refl) as (G1 & G2 & G3 & G4). assert (Hx : d0 < x) by (apply (proj1 (Hin0 x)); left; reflexivity).
    assert (GG : SS r /\ Forall (fun d => 0 <= d /\ above (Some x) d) r /\ exists doc, All w x mx del = All w doc mx del /\ (Some x = None /\ doc = -1 \/ Some x = Some doc /\ 0 <= doc) /\ forall d, In d r <-> doc < d < mx /\ del d = false).
    { splits; auto. exists x. splits; auto. intros d. specialize (Hin0 d). cbn [In] in Hin0. rewrite Forall_forall in G4. split.
      + intros Hd. pose proof (proj1 Hin0 (or_intror Hd)) as (Hd1 & Hd2). specialize (G4 d Hd). split; [lia|exact Hd2].
      + intros (Hd1 & Hd2). destruct (proj2 Hin0 ltac:(split; [lia|exact Hd2])) as [E|E]; [lia|exact E]. }
    stands; [reflexivity|exact GG|]. exists (All w x mx del). s3; [apply evs_1; reflexivity|reflexivity|exact GG].
Qed.
(* ---------- scorers that pass calls on *)
Lemma pass_beh sf sf' k (mk : Z -> sc -> sc) (g : Qc * nat -> option (Qc * nat)) :
  (forall d s, doc_of (mk d s) = d) ->
  (forall d s f, score sm (S f) (mk d s) = do v <- score sm f s; do w <- g (fst v); Some (w, mk d (snd v))) ->
  forall t0 s0 cur0 rest0,
  (forall op f, run sm (S f) op t0 = do r <- run sm f op s0; Some (fst r, mk (if fst r then doc_of (snd r) else doc_of t0) (snd r))) ->
  (forall d s op f, run sm (S f) op (mk d s) = do r <- run sm f op s; Some (fst r, mk (if fst r then doc_of (snd r) else d) (snd r))) ->
  Beh sf k s0 cur0 rest0 -> (forall x, In x rest0 -> g (sf x) = Some (sf' x)) -> Beh sf' k t0 cur0 rest0.
Proof.
  intros Hdoc Hsc t0 s0 cur0 rest0 H0 Hmk HB Hg.
  apply (beh_coind sf' k (fun t cur rest => exists s d, Beh sf k s cur rest /\ (forall x, In x rest -> g (sf x) = Some (sf' x)) /\ forall op f, run sm (S f) op t = do r <- run sm f op s; Some (fst r, mk (if fst r then doc_of (snd r) else d) (snd r)))).
  - clear - Hdoc Hmk Hsc. intros t cur rest (s & d & HB & Hg & Hr). destruct (beh_open _ _ _ _ _ HB) as (H1 & H2 & H3). splits; auto. intros op Hop. destruct (H3 op Hop) as (s' & (n & E) & Hs). exists (mk (if nonnil (tgt op rest) then doc_of s' else d) s'). split.
    + exists (S n). intros [|f] Hf; [lia|]. rewrite Hr, (E f ltac:(lia)). reflexivity.
    + intros x r Ex. rewrite Ex. cbn [nonnil]. destruct (Hs x r Ex) as (Hx & HB' & s'' & (n2 & E2) & Hx2 & HB2).
      assert (Hin : forall y, In y (x :: r) -> In y rest) by (intros y Hy; rewrite <- Ex in Hy; apply (tgt_in op); assumption). assert (Hg' : forall y, In y r -> g (sf y) = Some (sf' y)) by (intros y Hy; apply Hg, Hin; right; exact Hy).
      stands; [rewrite Hdoc; exact Hx|exists s', (doc_of s'); splits; auto|]. exists (mk (doc_of s') s''). s3; [|rewrite Hdoc; exact Hx|exists s'', (doc_of s'); splits; auto]. exists (S n2). intros [|f] Hf; [lia|]. rewrite Hsc, (E2 f ltac:(lia)). cbn [obind fst snd]. rewrite (Hg x (Hin x (or_introl eq_refl))). reflexivity.
  - exists s0, (doc_of t0). splits; auto.
Qed.
Lemma one_beh sf k s cur rest : Beh sf k s cur rest -> Beh (fun x => (fst (sf x), 1%nat)) k (One 0 s) cur rest.
Proof. intros H. apply (pass_beh sf _ k One (fun v => Some (fst v, 1%nat))) with (s0 := s); try reflexivity; auto. Qed.
Lemma bsc_beh sf k (nc : bool) rq op pr cur rest : Beh sf k (create rq op pr) cur rest -> (forall x, In x rest -> (snd (sf x) <= length rq + length op)%nat) ->
  Beh (fun x => ((fst (sf x) * (if nc then 1 else coord sm (snd (sf x)) (length rq + length op)%nat))%Qc, 0%nat)) k (Bsc nc 0 None rq op pr) cur rest.
Proof.
  intros H Hc. apply (pass_beh sf _ k (fun d s => Bsc nc d (Some s) rq op pr) (fun v => if (snd v <=? length rq + length op)%nat then Some ((fst v * (if nc then 1 else coord sm (snd v) (length rq + length op)%nat))%Qc, 0%nat) else None)) with (s0 := create rq op pr); try reflexivity; [|exact H|].
  - intros d s f. rewrite score_S. cbn [score_step obind]. destruct (score sm f s) as [((v, n), s')|]; [|reflexivity]. cbn [obind fst snd]. destruct (n <=? length rq + length op)%nat; reflexivity.
  - intros x Hx. specialize (Hc x Hx). apply Nat.leb_le in Hc. rewrite Hc. reflexivity.
Qed.
Lemma non_beh sf k : Beh sf k Non None [].
Proof. constructor; [constructor|constructor|]. intros op _. exists Non. destruct op; cbn [tgt fromz nonnil]; (split; [apply ev_1; reflexivity|discriminate]). Qed.

(* ---------- ReqExclScorer *)
Section EXCL.
  Variable k : bool.
  Variables sf sx : Z -> Qc * nat.
  Definition ExR (s : sc) (cur : option Z) (rest : list Z) : Prop :=
    (exists doc r e L X, s = Excl doc true (Some r) (Some e) /\ cur = None /\ Beh sf k r None L /\ Beh sx true e None X /\ rest = diff L X) \/
    (exists doc r, s = Excl doc false (Some r) None /\ cur = Some doc /\ Beh sf k r cur rest) \/
    (exists doc r e L X, s = Excl doc false (Some r) (Some e) /\ cur = Some doc /\ Beh sf k r cur L /\ Beh sx true e (Some (doc_of e)) X /\ rest = diff L (doc_of e :: X)).
  (* the required scorer stands at c, which is not excluded *)
  Lemma excl_stand c req L ex rest : Stand sf k req c L -> (forall r, Beh sf k r (Some c) L -> ExR (Excl c false (Some r) ex) (Some c) rest) -> StandR sf ExR (Excl c false (Some req) ex) c rest.
  Proof.
    intros (H1 & H2 & s'' & (n & H3) & H4 & H5) H. stands; [reflexivity|apply H; exact H2|]. exists (Excl c false (Some s'') ex). splits; [|reflexivity|apply H; exact H5]. exists (S n). intros [|f] Hf; [lia|]. rewrite score_S. cbn [score_step obind]. rewrite (H3 f ltac:(lia)). reflexivity.
  Qed.
  Lemma non_excl : forall m L req e X doc, (length L <= m)%nat -> Stand sf k req (doc_of req) L -> Beh sx true e (Some (doc_of e)) X -> 0 <= doc_of req < B ->
    exists s', (exists n, forall f g, (n <= f)%nat -> (n <= g)%nat -> non_excluded (run sm f) g doc req e = Some (nonnil (diff (doc_of req :: L) (doc_of e :: X)), s')) /\
      forall x r, diff (doc_of req :: L) (doc_of e :: X) = x :: r -> StandR sf ExR s' x r.
  Proof.
    induction m as [m IH] using lt_wf_ind. intros L req e X doc Hm HR0 HE H0. destruct (stand_beh _ _ _ _ _ HR0) as (_ & HR). set (c := doc_of req) in *. set (xd := doc_of e) in *. destruct (beh_facts _ _ _ _ _ HR) as (RS & RF). destruct (beh_facts _ _ _ _ _ HE) as (ES & EF). rewrite Forall_forall in RF, EF. cbn [above] in RF, EF.
    assert (AG : forall ex Y, Beh sx true ex (Some (doc_of ex)) Y -> doc_of ex = c -> (forall d, In d L -> (In d (xd :: X) <-> In d (c :: Y))) -> In c (xd :: X) ->
      exists s', (exists n, forall f g, (n <= f)%nat -> (n <= g)%nat -> (do r <- run sm f None req; if fst r then non_excluded (run sm f) g doc (snd r) ex else Some (false, Excl doc false None (Some ex))) = Some (nonnil (diff (c :: L) (xd :: X)), s')) /\
      forall x r, diff (c :: L) (xd :: X) = x :: r -> StandR sf ExR s' x r).
    { intros ex Y HY Hex Hiff Hc. rewrite (diff_drop c L _ Hc). rewrite (diff_ext L _ (c :: Y) Hiff). destruct (beh_next _ _ _ _ _ HR) as (req' & (n1 & E1) & Hq). destruct L as [|c' L'].
      - exists (Excl doc false None (Some ex)). split; [exists n1; intros f g Hf Hg; rewrite (E1 f Hf); reflexivity|discriminate].
      - pose proof (Hq c' L' eq_refl) as HB. pose proof HB as (Hd & _). cbn [nonnil] in E1. subst c'. rewrite <- Hex. destruct (IH (length L') ltac:(cbn [length] in Hm; lia) L' req' ex Y doc (le_n _) HB HY ltac:(pose proof (RF (doc_of req') (or_introl eq_refl)); lia)) as (s' & (n2 & E2) & Hs). exists s'. split; [|exact Hs]. exists (Nat.max n1 n2). intros f g Hf Hg. rewrite (E1 f ltac:(lia)). cbn [obind fst snd]. apply E2; lia. }
    destruct (Z.ltb_spec c xd) as [Hlt|Hge].
    - assert (Hn : ~ In c (xd :: X)) by (intros [E|E]; [lia|specialize (EF _ E); lia]). rewrite (diff_keep c L _ Hn). exists (Excl c false (Some req) (Some e)). split.
      + exists 1%nat. intros f [|g] Hf Hg; [lia|]. cbn [non_excluded]. fold c xd. destruct (Z.ltb_spec c xd); [reflexivity|lia].
      + intros x r E. injection E as <- <-. apply (excl_stand c req L); [exact HR0|]. intros r0 Hr0. right. right. exists c, r0, e, L, X. splits; auto.
    - destruct (Z.eq_dec xd c) as [Heq|Hne].
      + destruct (AG e X HE Heq) as (s' & (n & E) & Hs); [rewrite Heq; tauto|left; exact Heq|]. exists s'. split; [|exact Hs]. exists (S n). intros f [|g] Hf Hg; [lia|]. cbn [non_excluded]. fold c xd. destruct (Z.ltb_spec c xd); [lia|]. destruct (Z.ltb_spec xd c); [lia|]. apply E; lia.
      + destruct (beh_skip _ _ _ _ c HE ltac:(cbn; fold xd; lia) ltac:(lia)) as (e' & (n1 & E1) & He). destruct (from c X) as [|y Y] eqn:EX.
        * assert (HX : forall d, In d X -> d < c) by (intros d Hd; destruct (Z.lt_ge_cases d c); [assumption|]; assert (G : In d (from c X)) by (apply from_in; auto); rewrite EX in G; destruct G).
          assert (ED : diff (c :: L) (xd :: X) = c :: L).
          { rewrite <- (diff_nil (c :: L)) at 2. apply diff_ext. intros d Hd. split; [|intros []]. assert (c <= d) by (destruct Hd as [<-|Hd]; [lia|specialize (RF _ Hd); lia]). intros [E|E]; [lia|specialize (HX _ E); lia]. }
          rewrite ED. exists (Excl c false (Some req) None). split.
          -- exists (S n1). intros f [|g] Hf Hg; [lia|]. cbn [non_excluded]. fold c xd. destruct (Z.ltb_spec c xd); [lia|]. destruct (Z.ltb_spec xd c); [|lia]. rewrite (E1 f ltac:(lia)). reflexivity.
          -- intros x r E. injection E as <- <-. apply (excl_stand c req L); [exact HR0|]. intros r0 Hr0. right. left. exists c, r0. auto.
        * destruct (stand_beh _ _ _ _ _ (He y Y eq_refl)) as (Hy & HY). assert (HyX : forall d, c <= d -> (In d X <-> d = y \/ In d Y)) by (intros d Hd; transitivity (In d (from c X)); [rewrite from_in by exact ES; tauto|rewrite EX; cbn [In]; intuition]). assert (Hcy : c <= y) by (assert (G : In y (from c X)) by (rewrite EX; left; reflexivity); apply from_in in G; tauto).
          rewrite <- Hy in HY. destruct (Z.ltb_spec c y) as [Hc|Hc].
          -- destruct (beh_facts _ _ _ _ _ HY) as (YS & YF). rewrite Forall_forall in YF. cbn [above] in YF. assert (Hn : ~ In c (xd :: X)) by (intros [E|E]; [lia|]; apply HyX in E; [|lia]; destruct E as [E|E]; [lia|specialize (YF _ E); lia]). rewrite (diff_keep c L _ Hn). exists (Excl c false (Some req) (Some e')). split.
             ++ exists (S n1). intros f [|g] Hf Hg; [lia|]. cbn [non_excluded]. fold c xd. destruct (Z.ltb_spec c xd); [lia|]. destruct (Z.ltb_spec xd c); [|lia]. rewrite (E1 f ltac:(lia)). cbn [obind nonnil fst snd]. rewrite Hy. destruct (Z.ltb_spec c y); [reflexivity|lia].
             ++ intros x r E. injection E as <- <-. apply (excl_stand c req L); [exact HR0|]. intros r0 Hr0. right. right. exists c, r0, e', L, Y. splits; auto. apply diff_ext. intros d Hd. specialize (RF _ Hd). cbn [In]. rewrite HyX by lia. rewrite Hy. intuition lia.
          -- assert (y = c) by lia. destruct (AG e' Y HY ltac:(lia)) as (s' & (n & E) & Hs).
             ++ intros d Hd. specialize (RF _ Hd). cbn [In]. rewrite HyX by lia. intuition lia.
             ++ right. apply HyX; [lia|left; lia].
             ++ exists s'. split; [|exact Hs]. exists (S (Nat.max n n1)). intros f [|g] Hf Hg; [lia|]. cbn [non_excluded]. fold c xd. destruct (Z.ltb_spec c xd); [lia|]. destruct (Z.ltb_spec xd c); [|lia]. rewrite (E1 f ltac:(lia)). cbn [obind nonnil fst snd]. rewrite Hy. destruct (Z.ltb_spec c y); [lia|]. apply E; lia.
  Qed.
  Lemma excl_step r ex L X cur doc op b : (* after the excluded scorer has been placed *)
    Beh sf k r cur L -> allowed k cur op ->
    match ex with None => X = [] | Some e => Beh sx true e (Some (doc_of e)) (tl X) /\ X = doc_of e :: tl X end ->
    exists s', (exists n, forall f g, (n <= f)%nat -> (n <= g)%nat ->
      (do r' <- run sm f op r; match ex with None => Some (fst r', Excl (if fst r' then doc_of (snd r') else doc) false (if b && negb (fst r') then None else Some (snd r')) None) | Some e => if fst r' then non_excluded (run sm f) g doc (snd r') e else Some (false, Excl doc false None ex) end) = Some (nonnil (diff (tgt op L) X), s')) /\
      forall x t, diff (tgt op L) X = x :: t -> StandR sf ExR s' x t.
  Proof.
    intros HR Hop HX. destruct (beh_open _ _ _ _ _ HR) as (H1 & H2 & H3). destruct (H3 op Hop) as (r' & (n1 & E1) & Hr). destruct (tgt_facts op k cur L H1 H2 Hop) as (_ & _ & G). destruct (tgt op L) as [|c L'] eqn:ET.
    - destruct ex as [e0|].
      + exists (Excl doc false None (Some e0)). split; [exists n1; intros f g Hf Hg; rewrite (E1 f Hf); reflexivity|discriminate].
      + exists (Excl doc false (if b then None else Some r') None). split; [exists n1; intros f g Hf Hg; rewrite (E1 f Hf); cbn [obind nonnil fst snd negb]; rewrite andb_true_r; reflexivity|discriminate].
    - pose proof (Hr c L' eq_refl) as HB. pose proof HB as (Hc & _). destruct (G c L' eq_refl) as (_ & Hc1 & Hc2 & _). assert (Hc0 : 0 <= c < B) by (destruct cur; cbn [above] in Hc2; lia). cbn [nonnil] in E1. destruct ex as [e0|].
      + destruct HX as (HE & EX). rewrite EX. subst c. destruct (non_excl (length L') L' r' e0 (tl X) doc (le_n _) HB HE Hc0) as (s' & (n2 & E2) & Hs). exists s'. split; [|exact Hs]. exists (Nat.max n1 n2). intros f g Hf Hg. rewrite (E1 f ltac:(lia)). cbn [obind fst snd]. apply E2; lia.
      + subst X. rewrite diff_nil. exists (Excl c false (Some r') None). split.
        * exists n1. intros f g Hf Hg. rewrite (E1 f Hf). cbn [obind nonnil fst snd negb]. rewrite andb_false_r, Hc. reflexivity.
        * intros x t E. injection E as <- <-. apply (excl_stand c r' L'); [exact HB|]. intros r0 Hr0. right. left. exists c, r0. auto.
  Qed.
  Lemma excl_next_as f g doc ft r ex : excl_next (run sm f) g doc ft (Some r) ex =
    do e <- (if ft then do e <- ex; do r <- run sm f None e; Some (if fst r then Some (snd r) else None) else Some ex);
    do r' <- run sm f None r; match e with None => Some (fst r', Excl (if fst r' then doc_of (snd r') else doc) false (if true && negb (fst r') then None else Some (snd r')) None) | Some e0 => if fst r' then non_excluded (run sm f) g doc (snd r') e0 else Some (false, Excl doc false None e) end.
  Proof.
    unfold excl_next. destruct (if ft then _ else _) as [e|]; [|reflexivity]. destruct (run sm f None r) as [(b, r')|]; [|reflexivity]. cbn [obind fst snd]. destruct b, e; reflexivity.
  Qed.
  Lemma excl_run f op doc ft r ex : run sm (S f) op (Excl doc ft (Some r) ex) =
    do e <- (if ft then do e <- ex; do r <- run sm f op e; Some (if fst r then Some (snd r) else None) else Some ex);
    do r' <- run sm f op r; match e with None => Some (fst r', Excl (if fst r' then doc_of (snd r') else doc) false (if (match op with None => true | _ => false end) && negb (fst r') then None else Some (snd r')) None) | Some e0 => if fst r' then non_excluded (run sm f) f doc (snd r') e0 else Some (false, Excl doc false None e) end.
  Proof. rewrite run_S. destruct op as [d|]; cbn [step]; [reflexivity|apply excl_next_as]. Qed.
  Lemma excl_ok s cur rest : ExR s cur rest -> Beh sf k s cur rest.
  Proof.
    apply beh_coind. clear s cur rest. intros s cur rest H. destruct H as [(doc & r & e & L & X & -> & -> & HR & HE & ->)|[(doc & r & -> & -> & HR)|(doc & r & e & L & X & -> & -> & HR & HE & ->)]].
    - destruct (beh_facts _ _ _ _ _ HR) as (RS & RF). destruct (beh_open _ _ _ _ _ HE) as (ES & EF & H3). splits; [apply diff_SS; exact RS|apply Forall_forall; intros d Hd; apply diff_in in Hd; rewrite Forall_forall in RF; apply RF; tauto|]. intros op Hop.
      assert (Hop' : allowed true None op) by (destruct op; cbn in *; tauto). destruct (H3 op Hop') as (e' & (n1 & E1) & He).
      assert (ET : tgt op (diff L X) = diff (tgt op L) (tgt op X)) by (destruct op as [d|]; [apply from_diff; assumption|reflexivity]).
      rewrite ET. set (ex := if nonnil (tgt op X) then Some e' else None).
      destruct (excl_step r ex L (tgt op X) None doc op (match op with None => true | _ => false end) HR Hop) as (s' & (n2 & E2) & Hs).
      + unfold ex. destruct (tgt op X) as [|x X'] eqn:EX; cbn [nonnil]; [reflexivity|]. destruct (stand_beh _ _ _ _ _ (He x X' eq_refl)) as (Hx & HB). subst x. cbn [tl]. auto.
      + exists s'. split; [|exact Hs]. exists (S (Nat.max n1 n2)). intros [|f] Hf; [lia|]. rewrite excl_run. cbn [obind]. rewrite (E1 f ltac:(lia)). cbn [obind fst snd]. fold ex. apply (E2 f f); lia.
    - destruct (beh_facts _ _ _ _ _ HR) as (RS & RF). splits; auto. intros op Hop. destruct (excl_step r None rest [] (Some doc) doc op (match op with None => true | _ => false end) HR Hop eq_refl) as (s' & (n2 & E2) & Hs). rewrite diff_nil in *. exists s'. split; [|exact Hs]. exists (S n2). intros [|f] Hf; [lia|]. rewrite excl_run. apply (E2 f f); lia.
    - destruct (beh_facts _ _ _ _ _ HR) as (RS & RF). splits; [apply diff_SS; exact RS|apply Forall_forall; intros d Hd; apply diff_in in Hd; rewrite Forall_forall in RF; apply RF; tauto|]. intros op Hop.
      assert (ET : tgt op (diff L (doc_of e :: X)) = diff (tgt op L) (doc_of e :: X)) by (destruct op as [d|]; [apply from_diff2; exact RS|reflexivity]). rewrite ET.
      destruct (excl_step r (Some e) L (doc_of e :: X) (Some doc) doc op (match op with None => true | _ => false end) HR Hop (conj HE eq_refl)) as (s' & (n2 & E2) & Hs). exists s'. split; [|exact Hs]. exists (S n2). intros [|f] Hf; [lia|]. rewrite excl_run. apply (E2 f f); lia.
  Qed.
End EXCL.
Lemma excl_beh sf sx k r e L X : Beh sf k r None L -> Beh sx true e None X -> Beh sf k (Excl 0 true (Some r) (Some e)) None (diff L X).
Proof. intros HR HE. apply (excl_ok k sf sx). left. exists 0, r, e, L, X. auto. Qed.

(* ---------- ReqOptSumScorer *)
Definition plus (a b : Qc * nat) : Qc * nat := ((fst a + fst b)%Qc, (snd a + snd b)%nat).
Section OPT.
  Variable k : bool.
  Variables sf so : Z -> Qc * nat.
  Variable O : list Z.
  Hypothesis OB : Forall (fun d => 0 <= d < B) O.
  Definition optf (x : Z) : Qc * nat := if existsb (Z.eqb x) O then plus (sf x) (so x) else sf x.
  (* the optional scorer, when documents up to last have been scored *)
  Definition OI (ft : bool) (opt : option sc) (last : Z) : Prop :=
    match ft, opt with
    | true, Some o => Beh so true o None O
    | true, None => False
    | false, None => forall x, last < x -> ~ In x O
    | false, Some o => exists Or, Beh so true o (Some (doc_of o)) Or /\ 0 <= doc_of o /\ (last < doc_of o -> Stand so true o (doc_of o) Or) /\ forall x, last < x -> (In x O <-> x = doc_of o \/ In x Or)
    end.
  Lemma OI_later ft opt l1 l2 : l1 <= l2 -> OI ft opt l1 -> OI ft opt l2.
  Proof.
    intros H. unfold OI. destruct ft, opt as [o|]; auto; [|intros G x Hx; apply G; lia]. intros (Or & H1 & H2 & H3 & H4). exists Or. splits; auto; [intros Hl; apply H3; lia|intros x Hx; apply H4; lia].
  Qed.
  Definition OptR (s : sc) (cur : option Z) (rest : list Z) : Prop := exists doc ft r o last, s = Opt doc ft r o /\ Beh sf k r cur rest /\ OI ft o last /\ match cur with None => last = -1 | Some c => c = doc /\ 0 <= c < B /\ last <= c end.
  (* rossc_score at c *)
  Lemma opt_scored doc ft req o last c r0 : Stand sf k req c r0 -> OI ft o last -> last < c -> 0 <= c < B ->
    exists req' o', Beh sf k req' (Some c) r0 /\ OI false o' c /\ exists n, forall f, (n <= f)%nat -> opt_score (run sm f) (score sm f) doc ft req o = Some (optf c, Opt doc false req' o').
  Proof.
    intros (Hd & _ & req' & (n1 & E1) & Hd' & HR') HO Hlast Hc. exists req'.
    assert (EF : forall x, existsb (Z.eqb x) O = true <-> In x O) by (intros x; apply mem_in).
    (* both: the optional scorer o1 stands at or behind c *)
    assert (BOTH : forall o1 Or, Stand so true o1 (doc_of o1) Or -> c <= doc_of o1 -> (forall x, c <= x -> (In x O <-> x = doc_of o1 \/ In x Or)) ->
      exists o', OI false o' c /\ exists n, forall f, (n <= f)%nat -> (if doc_of o1 =? c then do y <- score sm f o1; Some (((fst (sf c) + fst (fst y))%Qc, (snd (sf c) + snd (fst y))%nat), Opt doc false req' (Some (snd y))) else Some (sf c, Opt doc false req' (Some o1))) = Some (optf c, Opt doc false req' o')).
    { intros o1 Or HS1 Hge Hin. destruct (Z.eqb_spec (doc_of o1) c) as [E|E].
      - pose proof HS1 as (_ & _ & o2 & (n2 & E2) & Hd2 & HB2). exists (Some o2). split; [exists Or; rewrite Hd2; splits; auto; [lia|lia|intros x Hx; apply Hin; lia]|]. exists n2. intros f Hf. rewrite (E2 f Hf). cbn [obind fst snd]. unfold optf. rewrite (proj2 (EF c) (proj2 (Hin c ltac:(lia)) (or_introl (eq_sym E)))). unfold plus. rewrite E. reflexivity.
      - exists (Some o1). split; [exists Or; splits; auto; [apply (stand_beh _ _ _ _ _ HS1)|lia|intros x Hx; apply Hin; lia]|]. exists 0%nat. intros f Hf. unfold optf. destruct (existsb (Z.eqb c) O) eqn:EX; [|reflexivity]. exfalso. apply EF in EX. apply Hin in EX; [|lia]. destruct EX as [EX|EX]; [lia|]. destruct (stand_beh _ _ _ _ _ HS1) as (_ & HB). destruct (beh_facts _ _ _ _ _ HB) as (_ & F). rewrite Forall_forall in F. specialize (F c EX). cbn [above] in F. lia. }
    (* reach: it is asked to skip to c *)
    assert (REACH : forall o1 cur1 L1, Beh so true o1 cur1 L1 -> above cur1 c -> (forall x, c <= x -> (In x O <-> In x L1)) ->
      exists o', OI false o' c /\ exists n, forall f, (n <= f)%nat -> (do x <- run sm f (Some c) o1; if fst x then (if doc_of (snd x) =? c then do y <- score sm f (snd x); Some (((fst (sf c) + fst (fst y))%Qc, (snd (sf c) + snd (fst y))%nat), Opt doc false req' (Some (snd y))) else Some (sf c, Opt doc false req' (Some (snd x)))) else Some (sf c, Opt doc false req' None)) = Some (optf c, Opt doc false req' o')).
    { intros o1 cur1 L1 HB1 Hab Hin. destruct (beh_skip _ _ _ _ c HB1 Hab ltac:(lia)) as (o2 & (n2 & E2) & Hs). destruct (beh_facts _ _ _ _ _ HB1) as (SL & _). destruct (from c L1) as [|y Or] eqn:Ef.
      - assert (Hno : forall x, c <= x -> ~ In x O) by (intros x Hx G; apply Hin in G; [|exact Hx]; assert (G2 : In x (from c L1)) by (apply from_in; auto); rewrite Ef in G2; destruct G2). exists None. split; [intros x Hx; apply Hno; lia|]. exists n2. intros f Hf. rewrite (E2 f Hf). cbn [obind nonnil fst snd]. unfold optf. destruct (existsb (Z.eqb c) O) eqn:EX; [|reflexivity]. apply EF in EX. destruct (Hno c ltac:(lia) EX).
      - pose proof (Hs y Or eq_refl) as HS2. pose proof HS2 as (Hy & _). assert (Hcy : In y L1 /\ c <= y) by (apply from_in; [exact SL|rewrite Ef; left; reflexivity]). rewrite <- Hy in HS2.
        destruct (BOTH o2 Or HS2 ltac:(lia)) as (o' & HO' & n3 & E3).
        + intros x Hx. rewrite (Hin x Hx). transitivity (In x (from c L1)); [rewrite from_in by exact SL; tauto|]. rewrite Ef, Hy. cbn [In]. intuition.
        + exists o'. split; [exact HO'|]. exists (Nat.max n2 n3). intros f Hf. rewrite (E2 f ltac:(lia)). cbn [obind nonnil fst snd]. apply E3. lia. }
    destruct ft.
    - destruct o as [o|]; [|destruct HO]. cbn [OI] in HO. destruct (REACH o None O HO ltac:(cbn; lia) ltac:(tauto)) as (o' & HO' & n2 & E2). exists o'. splits; auto. exists (Nat.max n1 n2). intros f Hf. unfold opt_score. rewrite (E1 f ltac:(lia)). cbn [obind fst snd]. rewrite Hd. apply E2. lia.
    - destruct o as [o|].
      + cbn [OI] in HO. destruct HO as (Or & HB & Ho0 & HS & Hin). destruct (Z.ltb_spec (doc_of o) c) as [Hlt|Hge].
        * destruct (REACH o (Some (doc_of o)) Or HB ltac:(cbn; lia)) as (o' & HO' & n2 & E2); [intros x Hx; rewrite Hin by lia; split; [intros [G|G]; [lia|exact G]|auto]|]. exists o'. splits; auto. exists (Nat.max n1 n2). intros f Hf. unfold opt_score. rewrite (E1 f ltac:(lia)). cbn [obind fst snd]. rewrite Hd. destruct (Z.ltb_spec (doc_of o) c); [|lia]. apply E2. lia.
        * destruct (BOTH o Or (HS ltac:(lia)) Hge ltac:(intros x Hx; apply Hin; lia)) as (o' & HO' & n2 & E2). exists o'. splits; auto. exists (Nat.max n1 n2). intros f Hf. unfold opt_score. rewrite (E1 f ltac:(lia)). cbn [obind fst snd]. rewrite Hd. destruct (Z.ltb_spec (doc_of o) c); [lia|]. apply E2. lia.
      + cbn [OI] in HO. exists None. splits; auto; [intros x Hx; apply HO; lia|]. exists n1. intros f Hf. unfold opt_score. rewrite (E1 f ltac:(lia)). cbn [obind fst snd]. unfold optf. destruct (existsb (Z.eqb c) O) eqn:EX; [|reflexivity]. apply EF in EX. destruct (HO c Hlast EX).
  Qed.
  Lemma opt_ok s cur rest : OptR s cur rest -> Beh optf k s cur rest.
  Proof.
    apply beh_coind. clear s cur rest. intros s cur rest (doc & ft & r & o & last & -> & HB & HO & Hcur). destruct (beh_open _ _ _ _ _ HB) as (H1 & H2 & H3). splits; auto. intros op Hop. destruct (H3 op Hop) as (r' & (n1 & E1) & Hs). destruct (tgt_facts op k cur rest H1 H2 Hop) as (_ & _ & G). exists (Opt (if nonnil (tgt op rest) then doc_of r' else doc) ft r' o). split.
    - exists (S n1). intros [|f] Hf; [lia|]. rewrite run_S. cbn [step]. rewrite (E1 f ltac:(lia)). reflexivity.
    - intros x t Et. pose proof (Hs x t Et) as HS. pose proof HS as (Hx & HB' & _). rewrite Et. cbn [nonnil]. destruct (G x t Et) as (_ & G1 & G2 & _). assert (Hb : 0 <= x < B /\ last < x) by (destruct cur; cbn [above] in G2; lia). destruct Hb as (Hb & Hl). rewrite Hx. stands; [reflexivity|exists x, ft, r', o, last; splits; auto; lia|].
      destruct (opt_scored x ft r' o last x t HS HO Hl Hb) as (req' & o' & HBq & HO' & n2 & E2). exists (Opt x false req' o'). s3; [|reflexivity|exists x, false, req', o', x; splits; auto; lia]. exists (S n2). intros [|f] Hf; [lia|]. rewrite score_S. cbn [score_step]. apply E2. lia.
  Qed.
End OPT.
Lemma opt_beh sf so k r o L O : Beh sf k r None L -> Beh so true o None O -> Beh (optf sf so O) k (Opt 0 true r (Some o)) None L.
Proof. intros H1 H2. apply opt_ok. exists 0, true, r, (Some o), (-1). auto. Qed.
End BOUND.
Notation Stand sm B sf k := (StandR sm sf (Beh sm B sf k)).
