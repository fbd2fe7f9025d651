(* MultiTermDocEnum follows the joined postings. *)
From Coq Require Import Sorting.Permutation.
From Verif Require Import Util Codec_Spec Seg_Model Strcmp Dict_Model Dict_Spec Dict_Proofs DictCursor_Proofs Post_Model Post_Spec Post_Proofs PostRun_Proofs PQueue_Model PQueue_Proofs Multi_Model Mte_Model Mte_Spec Mte_Proofs Mtde_Model Mtde_Spec.
Open Scope Z_scope.

(* ---------- lists of postings *)
Lemma first_ok_app ok (a b : list post) : first_ok ok (a ++ b) = match first_ok ok a with Some (p, t) => Some (p, t ++ b) | None => first_ok ok b end.
Proof. induction a as [|x a IH]; cbn [app first_ok]; auto. destruct (ok (fst x)); auto. Qed.
Lemma first_ok_shift ok s (l : list post) : first_ok ok (map (shift s) l) = match first_ok (fun d => ok (s + d)) l with Some (p, t) => Some (shift s p, map (shift s) t) | None => None end.
Proof. induction l as [|x l IH]; cbn [map first_ok]; auto. unfold shift at 1. cbn [fst]. destruct (ok (s + fst x)); auto. Qed.
Lemma first_ok_all Q ok (l : list post) p t : Forall Q l -> first_ok ok l = Some (p, t) -> Q p /\ Forall Q t /\ (length t < length l)%nat /\ ok (fst p) = true.
Proof.
  intros HF. induction HF as [|x l Hx HF IH]; cbn [first_ok]; [discriminate|]. destruct (ok (fst x)) eqn:E.
  - intros H. apply some_inj in H. injection H as <- <-. cbn [length]. repeat split; auto; lia.
  - intros H. destruct (IH H) as (H1 & H2 & H3 & H4). cbn [length]. repeat split; auto; lia.
Qed.
Lemma first_ok_ext f g (l : list post) : (forall d, f d = g d) -> first_ok f l = first_ok g l.
Proof. intros H. induction l as [|x l IH]; cbn [first_ok]; auto. rewrite H, IH. reflexivity. Qed.
Lemma first_ok_none ok (l : list post) : Forall (fun p => ok (fst p) = false) l -> first_ok ok l = None.
Proof. induction 1 as [|x l Hx HF IH]; cbn [first_ok]; auto. rewrite Hx. auto. Qed.
Lemma freq_shift s p : freq (shift s p) = freq p.
Proof. reflexivity. Qed.
Lemma take_all Q del : forall m (l : list post), Forall Q l -> Forall Q (snd (take_live m del l)) /\ (length (fst (take_live m del l)) <= m)%nat /\ ((length (fst (take_live m del l)) < m)%nat -> snd (take_live m del l) = []).
Proof.
  induction m as [|m IH]; intros l HF; [cbn; repeat split; auto; lia|]. cbn [take_live]. destruct (first_ok (fun d => negb (del d)) l) as [[p t]|] eqn:E; [|cbn; repeat split; auto; lia].
  destruct (first_ok_all Q _ _ _ _ HF E) as (_ & H2 & _). specialize (IH t H2). destruct (take_live m del t) as [r t']. cbn [fst snd length] in *. destruct IH as (I1 & I2 & I3). repeat split; auto; try lia. intros H. apply I3. lia.
Qed.
Lemma take_shift del s : forall m (l : list post), take_live m del (map (shift s) l) = (map (fun y => (s + fst y, snd y)) (fst (take_live m (fun d => del (s + d)) l)), map (shift s) (snd (take_live m (fun d => del (s + d)) l))).
Proof.
  induction m as [|m IH]; intros l; cbn [take_live]; auto. rewrite first_ok_shift. destruct (first_ok (fun d => negb (del (s + d))) l) as [[p t]|]; auto. rewrite IH. destruct (take_live m (fun d => del (s + d)) t) as [r t']. cbn [fst snd map]. reflexivity.
Qed.
Lemma take_app del : forall m (a b : list post), take_live m del (a ++ b) = let '(r, a') := take_live m del a in
  if (length r =? m)%nat then (r, a' ++ b) else let '(r2, b') := take_live (m - length r) del b in (r ++ r2, b').
Proof.
  induction m as [|m IH]; intros a b; [reflexivity|]. cbn [take_live]. rewrite first_ok_app. destruct (first_ok (fun d => negb (del d)) a) as [[p t]|] eqn:E.
  - rewrite IH. destruct (take_live m del t) as [r t']. cbn [length]. change (S (length r) =? S m)%nat with (length r =? m)%nat. destruct (length r =? m)%nat; auto. change (S m - S (length r))%nat with (m - length r)%nat. destruct (take_live (m - length r) del b); reflexivity.
  - cbn [length Nat.eqb]. change (S m - 0)%nat with (S m). cbn [take_live]. destruct (first_ok (fun d => negb (del d)) b) as [[p t]|]; auto. destruct (take_live m del t); reflexivity.
Qed.

Lemma nth_upd_eq {A} (l : list A) i v d : (i < length l)%nat -> nth i (upd l i v) d = v.
Proof. intros H. apply nth_error_nth. apply upd_eq. exact H. Qed.
Lemma nth_upd_neq {A} (l : list A) i k v d : i <> k -> nth k (upd l i v) d = nth k l d.
Proof. intros H. pose proof (upd_neq l i k v H) as E. destruct (nth_error l k) as [x|] eqn:El; [rewrite (nth_error_nth _ _ _ E), (nth_error_nth _ _ _ El); reflexivity|]. rewrite !nth_overflow; [reflexivity|apply nth_error_None; auto|apply nth_error_None; congruence]. Qed.
Lemma Forall_upd1 {A} (P : A -> Prop) l i v : Forall P l -> P v -> Forall P (upd l i v).
Proof. intros HF Hv. revert i. induction HF as [|x l Hx HF IH]; intros [|i]; cbn [upd]; constructor; auto. Qed.

(* ---------- one part *)
Section SUB.
  Variables (kn : nat) (pos : bool) (g : seg) (s : sfi).
  Hypotheses (Hkn : (3 <= kn)%nat) (Hs : s_skip s = Z.of_nat kn).
  Notation R := (rel kn pos g).
  Lemma Hkn1 : (1 <= kn)%nat. Proof. lia. Qed.
  Lemma sub_next del e c : R e c -> exists b e', tde_next pos del e = Some (b, e') /\
    match first_ok (fun d => negb (del d)) (fst c) with
    | Some (p, t) => b = true /\ p_doc e' = fst p /\ p_freq e' = freq p /\ R e' (t, snd p)
    | None => b = false /\ R e' ([], []) end.
  Proof.
    intros HR. destruct (move_rel kn Hkn1 pos g e c (PNext del) HR (conj Logic.I Logic.I) ltac:(discriminate) [] s tir_open Hs) as (e' & E & HR'). cbn [tde_step pspec_step] in *. unfold spec_move in *.
    destruct (tde_next pos del e) as [[b e1]|]; cbn [obind fst snd] in E; [|discriminate]. apply some_inj in E. exists b. unfold doc_of in E. cbn [fst snd] in E.
    destruct (first_ok (fun d => negb (del d)) (fst c)) as [[p t]|]; cbn [fst snd] in *; destruct b; injection E as E; subst; try discriminate; eexists; split; [reflexivity| |reflexivity|]; repeat split; auto.
  Qed.
  Lemma sub_skip del target e c : R e c -> exists b e', tde_skip_to pos (g_frq g) (g_prx g) (s_skip s) del e target = Some (b, e') /\
    match first_ok (fun d => negb (del d) && (target <=? d)) (fst c) with
    | Some (p, t) => b = true /\ p_doc e' = fst p /\ p_freq e' = freq p /\ R e' (t, snd p)
    | None => b = false /\ R e' ([], []) end.
  Proof.
    intros HR. destruct (move_rel kn Hkn1 pos g e c (PSkip del target) HR (conj Logic.I Hkn) ltac:(discriminate) [] s tir_open Hs) as (e' & E & HR'). cbn [tde_step pspec_step] in *. unfold spec_move in *.
    destruct (tde_skip_to pos (g_frq g) (g_prx g) (s_skip s) del e target) as [[b e1]|]; cbn [obind fst snd] in E; [|discriminate]. apply some_inj in E. exists b. unfold doc_of in E. cbn [fst snd] in E.
    destruct (first_ok (fun d => negb (del d) && (target <=? d)) (fst c)) as [[p t]|]; cbn [fst snd] in *; destruct b; injection E as E; subst; try discriminate; eexists; split; [reflexivity| |reflexivity|]; repeat split; auto.
  Qed.
  Lemma sub_read del m e c : pos = false -> R e c -> exists e', stde_read (S (Z.to_nat (p_df e - p_count e))) del e m = Some (fst (take_live m del (fst c)), e') /\ R e' (snd (take_live m del (fst c)), []).
  Proof.
    intros Hp HR. destruct (move_rel kn Hkn1 pos g e c (PRead del m) HR (conj Hp Logic.I) ltac:(discriminate) [] s tir_open Hs) as (e' & E & HR'). cbn [tde_step pspec_step] in *.
    destruct (stde_read (S (Z.to_nat (p_df e - p_count e))) del e m) as [[l e1]|]; cbn [obind fst snd] in E; [|discriminate]. apply some_inj in E. destruct (take_live m del (fst c)) as [r t]. cbn [fst snd] in *. injection E as <- <-. exists e1. auto.
  Qed.
  Lemma sub_pos e c x r : pos = true -> R e c -> snd c = x :: r -> exists e', next_position e = Some (x, e') /\ R e' (fst c, r).
  Proof.
    intros Hp HR Hc. destruct (move_rel kn Hkn1 pos g e c PPos HR (conj Hp Logic.I) ltac:(discriminate) [] s tir_open Hs) as (e' & E & HR'). cbn [tde_step pspec_step] in *. rewrite Hc in *. cbn [fst snd] in *.
    destruct (next_position e) as [[y e1]|]; cbn [obind fst snd] in E; [|discriminate]. apply some_inj in E. injection E as <- <-. exists e1. auto.
  Qed.
  Lemma sub_seek_rel e c P j : R e c -> (pos = true -> p_pcnt e = 0) -> found kn g P (Some j) -> R (sub_seek pos (g, s) e j) (P, []) /\ (pos = true -> p_pcnt (sub_seek pos (g, s) e j) = 0).
  Proof.
    intros HR H0 HF. pose proof (seek_rel kn Hkn1 pos g e c P (Some j) HR HF) as H. rewrite <- Hs in H.
    assert (E : sub_seek pos (g, s) e j = tde_seek pos (g_frq g) (g_prx g) (s_skip s) e (Some j)).
    { unfold sub_seek, tde_seek. cbn [fst snd]. destruct pos; auto. cbn [stpe_seek_ti stde_seek_ti set_prx p_frq p_prx p_skip p_count p_df p_doc p_freq p_sdoc p_scount p_num p_fptr p_pptr p_sptr p_have p_pcnt p_posn]. rewrite (H0 eq_refl). reflexivity. }
    rewrite E. split; [exact H|]. intros Hp. unfold tde_seek. rewrite Hp. reflexivity.
  Qed.
End SUB.

(* ---------- the segments *)
Record segrel (v : pseg) (g : psrc) (x : sgm) : Prop := {
  z_ok : pseg_ok v; z_x : g_int x = v_int v /\ g_skip x = Z.of_nat (v_kn v);
  z_laid : flaid (v_kn v) [] [] (v_fs v) (g_frq (fst g)) (g_prx (fst g)) (g_fs x);
  z_sgm : sgm_ok x; z_open : opened x (dict_of g); z_skip : s_skip (snd g) = Z.of_nat (v_kn v) }.
Lemma segrel_of v g : pseg_ok v -> popened v g -> exists x, segrel v g x.
Proof.
  intros Hv (E1 & E2). pose proof Hv as (HI & HI2 & Hk & Hk2 & Hi & _). unfold dw_flush in E1. destruct (write_fields_ok (v_kn v) ltac:(lia) (v_fs v) [] []) as (frq & prx & ds & Ew & Hl). rewrite Ew in E1. cbn [obind fst snd] in E1.
  destruct (write_dict (Z.of_nat (v_int v)) (Z.of_nat (v_kn v)) ds) as [d|] eqn:Ed; cbn [obind] in E1; [|discriminate]. apply some_inj in E1. destruct g as [g s]. cbn [fst snd] in *. subst g. cbn [g_dict g_frq g_prx] in *.
  pose proof (dict_ok_of (v_kn v) ltac:(lia) _ _ _ _ Hi Hl) as Hd. exists (mkSgm (v_int v) (Z.of_nat (v_kn v)) ds).
  destruct (write_read (v_int v) (Z.of_nat (v_kn v)) HI ds Hd) as (f' & s' & E1' & E2' & _ & _ & _ & Es & _). rewrite Ed in E1'. apply some_inj in E1'. subst f'. specialize (E2' HI2 ltac:(unfold i32; lia)). rewrite E2 in E2'. apply some_inj in E2'. subst s'.
  constructor; cbn [g_int g_skip g_fs fst snd g_frq g_prx]; auto.
  - split; [exact HI|]. split; [exact HI2|]. cbn [g_skip g_fs]. split; [lia|exact Hd].
  - split; auto.
Qed.
Lemma Forall3_of vs gs : Forall pseg_ok vs -> Forall2 popened vs gs -> exists xs, Forall2 (fun vg x => segrel (fst vg) (snd vg) x) (combine vs gs) xs /\ length vs = length gs.
Proof.
  intros HF H. revert HF. induction H as [|v g vs gs Hvg H IH]; intros HF; [exists []; split; constructor|]. inversion HF as [|? ? H1 H2]; subst. destruct (IH H2) as (xs & Hxs & Hl). destruct (segrel_of v g H1 Hvg) as (x & Hx).
  exists (x :: xs). cbn [combine length]. split; [constructor; auto|lia].
Qed.

Section M.
  Variables (mp : option (list (list Z))) (vs : list pseg) (gs : list psrc) (xs : list sgm) (pos : bool).
  Notation n := (length gs).
  Hypothesis Hlen : length vs = n.
  Hypothesis Hrel : Forall2 (fun vg x => segrel (fst vg) (snd vg) x) (combine vs gs) xs.
  Notation srcs := (map dict_of gs).
  Notation starts := (pstarts 0 vs).
  Definition bs (i : nat) : Z := nth i starts 0.
  Lemma comb_len : length (combine vs gs) = n.
  Proof. rewrite combine_length. lia. Qed.
  Lemma pinfo i : (i < n)%nat -> exists v g x, nth_error vs i = Some v /\ nth_error gs i = Some g /\ nth_error xs i = Some x /\ segrel v g x.
  Proof.
    intros Hi. destruct (nth_error vs i) as [v|] eqn:Ev; [|apply nth_error_None in Ev; lia]. destruct (nth_error gs i) as [g|] eqn:Eg; [|apply nth_error_None in Eg; lia].
    destruct (nth_error xs i) as [x|] eqn:Ex; [|apply nth_error_None in Ex; rewrite <- (Forall2_length _ _ _ Hrel), comb_len in Ex; lia].
    exists v, g, x. splits; auto. assert (Ec : nth_error (combine vs gs) i = Some (v, g)). { clear -Ev Eg. revert gs i Ev Eg. induction vs as [|a l IH]; intros [|b gs] [|i] Ev Eg; cbn [nth_error combine] in *; try discriminate; [congruence|eauto]. }
    exact (Forall2_nth_error _ _ _ Hrel i _ _ Ec Ex).
  Qed.
  Lemma Hsrc : Forall2 src_ok xs srcs.
  Proof.
    apply srcs_ok.
    - apply Forall_forall. intros x Hx. destruct (Forall2_in_r _ _ _ _ Hrel Hx) as (vg & _ & H). exact (z_sgm _ _ _ H).
    - clear -Hrel Hlen. revert gs xs Hlen Hrel. induction vs as [|v l IH]; intros [|g gs] xs Hl Hr; cbn [combine length map] in *; try discriminate; inversion Hr; subst; constructor; auto. cbn [fst snd] in *. exact (z_open _ _ _ H1).
  Qed.
  Lemma srcs_len : length srcs = n.
  Proof. apply map_length. Qed.
  Lemma bs_nth : forall l s i, (i <= length l)%nat -> nth_error (pstarts s l) i = Some (nth i (pstarts s l) 0).
  Proof. intros l s i Hi. apply nth_error_nth'. assert (forall l s, length (pstarts s l) = S (length l)) by (induction l0; intros; cbn [pstarts length]; auto). rewrite H. lia. Qed.
  Lemma bs_at i : (i <= n)%nat -> nth_error starts i = Some (bs i).
  Proof. intros Hi. apply bs_nth. lia. Qed.
  Lemma bs_S i v : nth_error vs i = Some v -> bs (S i) = bs i + v_size v.
  Proof.
    unfold bs. assert (G : forall l s i, nth_error l i = Some v -> nth (S i) (pstarts s l) 0 = nth i (pstarts s l) 0 + v_size v).
    { induction l as [|a l IH]; intros s [|j] H; cbn [nth_error] in H; try discriminate.
      - apply some_inj in H. subst a. cbn [pstarts nth]. destruct l; reflexivity.
      - cbn [pstarts]. change (nth (S (S j)) (s :: pstarts (s + v_size a) l) 0) with (nth (S j) (pstarts (s + v_size a) l) 0). change (nth (S j) (s :: pstarts (s + v_size a) l) 0) with (nth j (pstarts (s + v_size a) l) 0). apply IH. auto. }
    apply G.
  Qed.

  (* every part follows a cursor of its own *)
  Definition subr (C : nat -> pcur) (tdes : list tde) : Prop :=
    length tdes = n /\ forall i, (i < n)%nat -> exists e, nth_error tdes i = Some e /\ forall v g x, nth_error vs i = Some v -> nth_error gs i = Some g -> segrel v g x ->
      rel (v_kn v) pos (fst g) e (C i) /\ Forall (fun p => fst p < v_size v) (fst (C i)).
  Definition later (C : nat -> pcur) (st : list bool) (k : nat) : list post := flat_map (fun i => if nth i st false then map (shift (bs i)) (fst (C i)) else []) (seq k (n - k)).
  Definition cset (C : nat -> pcur) (j : nat) (c : pcur) (i : nat) : pcur := if (i =? j)%nat then c else C i.
  Lemma cset_eq C j c : cset C j c j = c.
  Proof. unfold cset. rewrite Nat.eqb_refl. reflexivity. Qed.
  Lemma later_cset C j c st k : (j < k)%nat -> later (cset C j c) st k = later C st k.
  Proof.
    intros H. unfold later. assert (G : forall i, In i (seq k (n - k)) -> cset C j c i = C i). { intros i Hi. apply in_seq in Hi. unfold cset. destruct (Nat.eqb_spec i j); auto. lia. }
    induction (seq k (n - k)) as [|a l IH]; auto. cbn [flat_map]. rewrite (G a) by (left; auto). rewrite IH; auto. intros i Hi. apply G. right. auto.
  Qed.
  Lemma subr_put C tdes j c e : subr C tdes -> (j < n)%nat ->
    (forall v g x, nth_error vs j = Some v -> nth_error gs j = Some g -> segrel v g x -> rel (v_kn v) pos (fst g) e c /\ Forall (fun p => fst p < v_size v) (fst c)) -> subr (cset C j c) (upd tdes j e).
  Proof.
    intros (Hl & Hs) Hj He. split; [rewrite upd_length; auto|]. intros i Hi. destruct (Nat.eq_dec i j) as [->|Hne].
    - exists e. split; [apply upd_eq; lia|]. rewrite cset_eq. exact He.
    - rewrite upd_neq by auto. unfold cset. rewrite (proj2 (Nat.eqb_neq i j) Hne). apply Hs. auto.
  Qed.
  Definition curr_ok (m : mtd) (C : nat -> pcur) (L : list post) (rem : list Z) : Prop :=
    match x_curr m with
    | Some j => x_next m = S j /\ (j < n)%nat /\ x_base m = bs j /\ L = map (shift (bs j)) (fst (C j)) ++ later C (x_state m) (S j) /\ (pos = true -> rem = snd (C j))
    | None => L = [] /\ rem = [] /\ forall i, (x_next m <= i < n)%nat -> nth i (x_state m) false = false
    end.
  Definition RI (m : mtd) (C : nat -> pcur) (L : list post) (rem : list Z) : Prop :=
    (exists qc, cinv mp xs srcs qc (x_te m)) /\ subr C (x_tdes m) /\ length (x_state m) = n /\ curr_ok m C L rem.
  (* mtde_next_tde *)
  Lemma next_tde_ok m C : (exists qc, cinv mp xs srcs qc (x_te m)) -> subr C (x_tdes m) -> length (x_state m) = n ->
    exists m', next_tde gs starts m = Some m' /\ x_te m' = x_te m /\ x_tdes m' = x_tdes m /\ x_state m' = x_state m /\
      match x_curr m' with
      | Some j => (x_next m <= j < n)%nat /\ x_next m' = S j /\ x_base m' = bs j /\ later C (x_state m) (x_next m) = map (shift (bs j)) (fst (C j)) ++ later C (x_state m) (S j) /\ nth j (x_state m) false = true
      | None => later C (x_state m) (x_next m) = [] /\ (forall i, (x_next m' <= i < n)%nat -> nth i (x_state m) false = false)
      end.
  Proof.
    intros Hq Hsub Hst. unfold next_tde, next_set.
    assert (G : forall d k, d = (n - k)%nat -> match find (fun j => nth j (x_state m) false) (seq k d) with
      | Some j => (k <= j < n)%nat /\ nth j (x_state m) false = true /\ later C (x_state m) k = map (shift (bs j)) (fst (C j)) ++ later C (x_state m) (S j)
      | None => later C (x_state m) k = [] end).
    { induction d as [|d IH]; intros k Hd; cbn [seq find].
      - unfold later. rewrite <- Hd. reflexivity.
      - assert (El : later C (x_state m) k = (if nth k (x_state m) false then map (shift (bs k)) (fst (C k)) else []) ++ later C (x_state m) (S k)) by (unfold later; rewrite <- Hd; cbn [seq flat_map]; do 3 f_equal; lia).
        destruct (nth k (x_state m) false) eqn:Ek; [splits; auto; lia|]. specialize (IH (S k) ltac:(lia)). destruct (find (fun j => nth j (x_state m) false) (seq (S k) d)) as [j|]; [|rewrite El, IH; reflexivity]. destruct IH as (H1 & H2 & H3). splits; auto; try lia. rewrite El, H3. reflexivity. }
    specialize (G (n - x_next m)%nat (x_next m) eq_refl). destruct (find (fun j => nth j (x_state m) false) (seq (x_next m) (n - x_next m))) as [j|].
    - destruct G as (H1 & H2 & H3). rewrite (bs_at j) by lia. cbn [obind]. eexists. split; [reflexivity|]. cbn [x_te x_tdes x_state x_curr x_next x_base]. splits; auto; lia.
    - eexists. split; [reflexivity|]. cbn [x_te x_tdes x_state x_curr x_next x_base]. splits; auto. intros i Hi. lia.
  Qed.
  Lemma local_ok del i : (i < n)%nat -> local starts del i = Some (fun d => del (bs i + d)).
  Proof. intros Hi. unfold local. rewrite bs_at by lia. reflexivity. Qed.
  Lemma size_bound j v d : nth_error vs j = Some v -> d < v_size v -> bs j + d < bs (S j).
  Proof. intros Hv Hd. rewrite (bs_S j v Hv). lia. Qed.
  Definition stepped (ok : Z -> bool) (L : list post) (r : option (Z * Z)) (m' : mtd) : Prop :=
    match first_ok ok L with
    | Some (p, t) => r = Some (fst p, freq p) /\ exists C', RI m' C' t (snd p)
    | None => r = None /\ exists C', RI m' C' [] []
    end.
  (* leaving a part: everything in it is behind *)
  Lemma leave m m1 C C1 c' j L rem ok : RI m C L rem -> x_curr m = Some j -> x_te m1 = x_te m -> x_state m1 = x_state m -> x_next m1 = x_next m -> subr C1 (x_tdes m1) -> C1 = C \/ C1 = cset C j c' ->
    first_ok ok (map (shift (bs j)) (fst (C j))) = None ->
    exists m2, next_tde gs starts m1 = Some m2 /\ exists L2, first_ok ok L = first_ok ok L2 /\ (x_curr m2 = None -> RI m2 C1 [] [] /\ L2 = []) /\
      (x_curr m2 <> None -> (x_next m < x_next m2 <= n)%nat /\ exists rem2, RI m2 C1 L2 rem2).
  Proof.
    intros (Hq & Hsub & Hst & Hc) Hj E1 E2 E3 Hs1 HC Hf. unfold curr_ok in Hc. rewrite Hj in Hc. destruct Hc as (Hn & Hjn & _ & HL & _).
    destruct (next_tde_ok m1 C1) as (m2 & E & F1 & F2 & F3 & Hc2); [rewrite E1; auto|auto|rewrite E2; auto|]. exists m2. split; auto. exists (later C1 (x_state m1) (x_next m1)).
    assert (HLL : later C1 (x_state m1) (x_next m1) = later C (x_state m) (S j)) by (rewrite E2, E3, Hn; destruct HC as [->| ->]; auto; apply later_cset; lia).
    split; [rewrite HL, first_ok_app, Hf, HLL; reflexivity|]. destruct (x_curr m2) as [i|] eqn:Ei.
    - split; [discriminate|]. intros _. destruct Hc2 as (G1 & G2 & G3 & G4 & _). split; [lia|]. exists (snd (C1 i)). unfold RI. rewrite F1, F2, F3, E1, E2. splits; auto. unfold curr_ok. rewrite Ei, F3, E2. splits; auto; [lia|]. rewrite E2 in G4. exact G4.
    - split; [|congruence]. intros _. destruct Hc2 as (G1 & G2). split; auto. unfold RI. rewrite F1, F2, F3, E1, E2. splits; auto. unfold curr_ok. rewrite Ei, F3, E2. splits; auto. rewrite E2 in G2. exact G2.
  Qed.
  (* arriving at a document *)
  Lemma arrive m C j L rem ok p t e' : RI m C L rem -> x_curr m = Some j -> first_ok (fun d => ok (bs j + d)) (fst (C j)) = Some (p, t) ->
    (forall v g x, nth_error vs j = Some v -> nth_error gs j = Some g -> segrel v g x -> rel (v_kn v) pos (fst g) e' (t, snd p)) ->
    first_ok ok L = Some (shift (bs j) p, map (shift (bs j)) t ++ later C (x_state m) (S j)) /\ RI (put_tde m j e') (cset C j (t, snd p)) (map (shift (bs j)) t ++ later C (x_state m) (S j)) (snd p).
  Proof.
    intros (Hq & Hsub & Hst & Hc) Hj Hf He. unfold curr_ok in Hc. rewrite Hj in Hc. destruct Hc as (Hn & Hjn & Hb & HL & _). split; [rewrite HL, first_ok_app, first_ok_shift, Hf; reflexivity|].
    unfold RI, put_tde. cbn [x_te x_tdes x_state]. splits; auto.
    - apply subr_put; auto. intros v g x Hv Hg Hx. split; [eapply He; eauto|]. cbn [fst]. destruct Hsub as (_ & Hsub). destruct (Hsub j Hjn) as (e & _ & Hr). destruct (Hr v g x Hv Hg Hx) as (_ & HB). exact (proj1 (proj2 (first_ok_all _ _ _ _ _ HB Hf))).
    - unfold curr_ok. cbn [x_curr x_next x_base x_state]. rewrite Hj. rewrite cset_eq. cbn [fst snd]. splits; auto. rewrite later_cset by lia. reflexivity.
  Qed.
  Lemma curr_info m C L rem j : RI m C L rem -> x_curr m = Some j -> (j < n)%nat /\ x_base m = bs j /\ x_next m = S j /\ exists e v g x, nth_error (x_tdes m) j = Some e /\ nth_error vs j = Some v /\ nth_error gs j = Some g /\ segrel v g x /\ rel (v_kn v) pos (fst g) e (C j) /\ Forall (fun p => fst p < v_size v) (fst (C j)) /\ (3 <= v_kn v)%nat /\ s_skip (snd g) = Z.of_nat (v_kn v).
  Proof.
    intros (_ & Hsub & _ & Hc) Hj. unfold curr_ok in Hc. rewrite Hj in Hc. destruct Hc as (Hn & Hjn & Hb & _). splits; auto. destruct Hsub as (_ & Hs). destruct (Hs j Hjn) as (e & Ee & Hr). destruct (pinfo j Hjn) as (v & g & x & Hv & Hg & _ & Hx). destruct (Hr v g x Hv Hg Hx) as (H1 & H2).
    exists e, v, g, x. splits; auto; [|exact (z_skip _ _ _ Hx)]. destruct (z_ok _ _ _ Hx) as (_ & _ & H & _). exact H.
  Qed.
  Lemma same_seg j v g x v' g' x' : nth_error vs j = Some v -> nth_error gs j = Some g -> nth_error vs j = Some v' -> nth_error gs j = Some g' -> segrel v g x -> segrel v' g' x' -> v' = v /\ g' = g.
  Proof. intros. split; congruence. Qed.

  Lemma next_ok2 del : forall fuel m C L rem, (n - x_next m < fuel)%nat -> RI m C L rem ->
    exists r m', mtde_next pos gs starts fuel del m = Some (r, m') /\ stepped (fun d => negb (del d)) L r m'.
  Proof.
    induction fuel as [|fuel IH]; intros m C L rem Hfu HR; [lia|]. cbn [mtde_next]. destruct (x_curr m) as [j|] eqn:Ej.
    - destruct (curr_info _ _ _ _ _ HR Ej) as (Hjn & Hb & Hn & e & v & g & x & Ee & Hv & Hg & Hx & Hrl & HB & Hk & Hs). rewrite Ee. cbn [obind]. rewrite local_ok by auto. cbn [obind].
      destruct (sub_next (v_kn v) pos (fst g) (snd g) Hk Hs (fun d => del (bs j + d)) e (C j) Hrl) as (b & e' & -> & Hsn). cbn [obind fst snd].
      destruct (first_ok (fun d => negb (del (bs j + d))) (fst (C j))) as [[p t]|] eqn:Ef.
      + destruct Hsn as (-> & Hd & Hfr & Hrl'). destruct (arrive m C j L rem (fun d => negb (del d)) p t e' HR Ej Ef) as (G1 & G2).
        { intros v' g' x' H1 H2 H3. assert (v' = v) by congruence. assert (g' = g) by congruence. subst. exact Hrl'. }
        eexists _, _. split; [reflexivity|]. unfold stepped. rewrite G1. split; [unfold at_doc, put_tde; cbn [x_base fst shift]; rewrite Hb, Hd, Hfr; reflexivity|]. eexists. exact G2.
      + destruct Hsn as (-> & Hrl'). destruct (leave m (put_tde m j e') C (cset C j ([], [])) ([], []) j L rem (fun d => negb (del d)) HR Ej eq_refl eq_refl eq_refl) as (m2 & E2 & L2 & HL & HN & HS).
        { apply subr_put; [apply HR|auto|]. intros v' g' x' H1 H2 H3. assert (v' = v) by congruence. assert (g' = g) by congruence. subst. split; [exact Hrl'|constructor]. }
        { right. reflexivity. }
        { rewrite first_ok_shift, Ef. reflexivity. }
        rewrite E2. cbn [obind]. destruct (x_curr m2) as [i|] eqn:Ei.
        * destruct (HS ltac:(discriminate)) as (Hlt & rem2 & HR2). destruct (IH m2 _ L2 rem2 ltac:(lia) HR2) as (r & m' & E & HSt). exists r, m'. split; auto. unfold stepped in *. rewrite HL. exact HSt.
        * destruct (HN eq_refl) as (HR2 & ->). exists None, m2. split; auto. unfold stepped. rewrite HL. split; [reflexivity|]. eexists. exact HR2.
    - cbn [obind fst snd]. pose proof HR as (Hq & Hsub & Hst & Hc). unfold curr_ok in Hc. rewrite Ej in Hc. destruct Hc as (-> & -> & Hz).
      destruct (next_tde_ok m C Hq Hsub Hst) as (m2 & E & E1 & E2 & E3 & Hc2). rewrite E. cbn [obind]. destruct (x_curr m2) as [i|] eqn:Ei.
      + exfalso. destruct Hc2 as (H1 & _). unfold next_tde, next_set in E. destruct (find (fun j => nth j (x_state m) false) (seq (x_next m) (n - x_next m))) as [j|] eqn:Ef; [|apply some_inj in E; subst m2; discriminate].
        apply find_some in Ef. destruct Ef as (F1 & F2). apply in_seq in F1. rewrite Hz in F2; [discriminate|lia].
      + exists None, m2. split; auto. unfold stepped. cbn [first_ok]. split; auto. exists C. unfold RI. rewrite E1, E2, E3. splits; auto. unfold curr_ok. rewrite Ei, E3. splits; auto. apply Hc2.
  Qed.
  Lemma skip_ok2 del target : forall fuel m C L rem, RI m C L rem -> (match x_curr m with Some _ => (S (n - x_next m) < fuel)%nat | None => (0 < fuel)%nat end) ->
    exists r m', mtde_skip pos gs starts fuel del target m = Some (r, m') /\ stepped (fun d => negb (del d) && (target <=? d)) L r m'.
  Proof.
    induction fuel as [|fuel IH]; intros m C L rem HR Hfu2; [destruct (x_curr m); lia|]. cbn [mtde_skip]. destruct (x_curr m) as [j|] eqn:Ej.
    - destruct (curr_info _ _ _ _ _ HR Ej) as (Hjn & Hb & Hn & e & v & g & x & Ee & Hv & Hg & Hx & Hrl & HB & Hk & Hs). rewrite Ee, Hg. cbn [obind]. rewrite local_ok by auto. cbn [obind]. rewrite Hn, bs_at by lia. cbn [obind]. rewrite Hb.
      assert (Hext : forall d, negb (del (bs j + d)) && (target <=? bs j + d) = negb (del (bs j + d)) && (target - bs j <=? d)) by (intros d; destruct (Z.leb_spec target (bs j + d)), (Z.leb_spec (target - bs j) d); auto; lia).
      destruct (target <? bs (S j)) eqn:Et.
      + destruct (sub_skip (v_kn v) pos (fst g) (snd g) Hk Hs (fun d => del (bs j + d)) (target - bs j) e (C j) Hrl) as (b & e' & E & Hsn). rewrite E. cbn [obind fst snd].
        destruct (first_ok (fun d => negb (del (bs j + d)) && (target - bs j <=? d)) (fst (C j))) as [[p t]|] eqn:Ef.
        * destruct Hsn as (-> & Hd & Hfr & Hrl'). rewrite <- (first_ok_ext _ _ _ Hext) in Ef. destruct (arrive m C j L rem (fun d => negb (del d) && (target <=? d)) p t e' HR Ej Ef) as (G1 & G2).
          { intros v' g' x' H1 H2 H3. assert (v' = v) by congruence. assert (g' = g) by congruence. subst. exact Hrl'. }
          unfold put_tde at 1. cbn [x_tdes]. rewrite upd_eq by (destruct HR as (_ & (Hl & _) & _); lia). cbn [obind].
          eexists _, _. split; [reflexivity|]. unfold stepped. rewrite G1. split; [unfold at_doc, put_tde; cbn [x_base fst shift]; rewrite Hb, Hd, Hfr; reflexivity|]. eexists. exact G2.
        * destruct Hsn as (-> & Hrl'). destruct (leave m (put_tde m j e') C (cset C j ([], [])) ([], []) j L rem (fun d => negb (del d) && (target <=? d)) HR Ej eq_refl eq_refl eq_refl) as (m2 & E2 & L2 & HL & HN & HS).
          { apply subr_put; [apply HR|auto|]. intros v' g' x' H1 H2 H3. assert (v' = v) by congruence. assert (g' = g) by congruence. subst. split; [exact Hrl'|constructor]. }
          { right. reflexivity. }
          { rewrite first_ok_shift, (first_ok_ext _ _ _ Hext), Ef. reflexivity. }
          rewrite E2. cbn [obind]. destruct (x_curr m2) as [i|] eqn:Ei.
          -- destruct (HS ltac:(discriminate)) as (Hlt & rem2 & HR2). destruct (IH m2 _ L2 rem2 HR2 ltac:(rewrite Ei; lia)) as (r & m' & E3 & HSt). exists r, m'. split; auto. unfold stepped in *. rewrite HL. exact HSt.
          -- destruct (HN eq_refl) as (HR2 & ->). destruct fuel as [|fuel]; [lia|]. cbn [mtde_skip]. rewrite Ei. exists None, m2. split; auto. unfold stepped. rewrite HL. split; [reflexivity|]. eexists. exact HR2.
      + cbn [obind fst snd]. destruct (leave m m C C ([], []) j L rem (fun d => negb (del d) && (target <=? d)) HR Ej eq_refl eq_refl eq_refl) as (m2 & E2 & L2 & HL & HN & HS).
        { apply HR. } { auto. }
        { apply first_ok_none. apply Forall_forall. intros p Hp. apply in_map_iff in Hp. destruct Hp as (q & <- & Hq). rewrite Forall_forall in HB. pose proof (size_bound j v (fst q) Hv (HB q Hq)). apply Z.ltb_ge in Et. cbn [shift fst]. rewrite (proj2 (Z.leb_gt target (bs j + fst q))) by lia. apply andb_false_r. }
        rewrite E2. cbn [obind]. destruct (x_curr m2) as [i|] eqn:Ei.
        * destruct (HS ltac:(discriminate)) as (Hlt & rem2 & HR2). destruct (IH m2 _ L2 rem2 HR2 ltac:(rewrite Ei; lia)) as (r & m' & E3 & HSt). exists r, m'. split; auto. unfold stepped in *. rewrite HL. exact HSt.
        * destruct (HN eq_refl) as (HR2 & ->). destruct fuel as [|fuel]; [lia|]. cbn [mtde_skip]. rewrite Ei. exists None, m2. split; auto. unfold stepped. rewrite HL. split; [reflexivity|]. eexists. exact HR2.
    - pose proof HR as (_ & _ & _ & Hc). unfold curr_ok in Hc. rewrite Ej in Hc. destruct Hc as (-> & -> & _). exists None, m. split; auto. unfold stepped. cbn [first_ok]. split; auto. exists C. exact HR.
  Qed.

  Lemma RI_rem m C L rem : pos = false -> RI m C L rem -> RI m C L [].
  Proof.
    intros Hp (H1 & H2 & H3 & H4). unfold RI. splits; auto. unfold curr_ok in *. destruct (x_curr m) as [j|]; [|tauto]. destruct H4 as (A & B & D & E & _). splits; auto. congruence.
  Qed.
  Lemma take_nil del k : take_live k del [] = ([], []).
  Proof. destruct k; reflexivity. Qed.
  Definition left_in (m : mtd) (C : nat -> pcur) : nat := match x_curr m with Some j => 2 * (n - x_next m) + (match fst (C j) with [] => 0 | _ => 1 end) | None => 0 end.
  Lemma read_ok2 del : pos = false -> forall fuel m C L acc req, RI m C L [] -> (1 <= req)%nat -> (left_in m C < fuel)%nat ->
    exists m' C', mtde_read gs starts fuel del acc req m = Some (acc ++ fst (take_live req del L), m') /\ RI m' C' (snd (take_live req del L)) [].
  Proof.
    intros Hp. induction fuel as [|fuel IH]; intros m C L acc req HR Hreq Hfu; [lia|]. cbn [mtde_read]. unfold left_in in Hfu. destruct (x_curr m) as [j|] eqn:Ej.
    - destruct (curr_info _ _ _ _ _ HR Ej) as (Hjn & Hb & Hn & e & v & g & x & Ee & Hv & Hg & Hx & Hrl & HB & Hk & Hs). rewrite Ee. cbn [obind]. rewrite local_ok by auto. cbn [obind].
      destruct (sub_read (v_kn v) pos (fst g) (snd g) Hk Hs (fun d => del (bs j + d)) req e (C j) Hp Hrl) as (e' & -> & Hrl'). cbn [obind fst snd].
      pose proof HR as (Hq & Hsub & Hst & Hc). unfold curr_ok in Hc. rewrite Ej in Hc. destruct Hc as (_ & _ & _ & HL & _).
      destruct (take_all _ (fun d => del (bs j + d)) req _ HB) as (HB' & Hle & Hsh). pose proof (take_shift del (bs j) req (fst (C j))) as Hts. pose proof (take_app del req (map (shift (bs j)) (fst (C j))) (later C (x_state m) (S j))) as Hta. rewrite <- HL, Hts in Hta. cbn [fst snd] in Hta.
      assert (Hput : forall c', fst c' = snd (take_live req (fun d => del (bs j + d)) (fst (C j))) -> snd c' = [] -> subr (cset C j c') (upd (x_tdes m) j e')).
      { intros [c1 c2] H1 H2. cbn [fst snd] in *. subst c1 c2. apply subr_put; auto. intros v' g' x' H1 H2 H3. assert (v' = v) by congruence. assert (g' = g) by congruence. subst. split; [exact Hrl'|exact HB']. }
      assert (Hne : fst (take_live req (fun d => del (bs j + d)) (fst (C j))) <> [] -> fst (C j) <> []). { intros H1 H2. rewrite H2, take_nil in H1. apply H1. reflexivity. }
      destruct (take_live req (fun d => del (bs j + d)) (fst (C j))) as [r0 t0]. cbn [fst snd] in *. rewrite map_length in Hta. destruct r0 as [|y l].
      + assert (t0 = []) by (apply Hsh; cbn; lia). subst t0. cbn [length map app] in Hta. rewrite (proj2 (Nat.eqb_neq 0 req)) in Hta by lia. rewrite Nat.sub_0_r in Hta.
        destruct (next_tde_ok (put_tde m j e') (cset C j ([], []))) as (m2 & E & F1 & F2 & F3 & Hc2); [exact Hq|apply (Hput ([], [])); auto|exact Hst|]. rewrite E. cbn [obind]. unfold put_tde in F1, F2, F3, Hc2. cbn [x_te x_tdes x_state x_next] in F1, F2, F3, Hc2. rewrite Hn, later_cset in Hc2 by lia.
        assert (HT : take_live req del L = take_live req del (later C (x_state m) (S j))) by (rewrite Hta; destruct (take_live req del (later C (x_state m) (S j))); reflexivity). rewrite HT.
        destruct (x_curr m2) as [i|] eqn:Ei.
        * destruct Hc2 as (G1 & G2 & G3 & G4 & _). destruct (IH m2 (cset C j ([], [])) (later C (x_state m) (S j)) acc req) as (m' & C' & E2 & HR2); auto.
          -- unfold RI. rewrite F1, F2, F3. split; [exact Hq|split; [apply (Hput ([], [])); auto|split; [exact Hst|]]]. unfold curr_ok. rewrite Ei, F3. splits; auto; [lia|congruence].
          -- unfold left_in. rewrite Ei. destruct (fst (cset C j ([], []) i)); destruct (fst (C j)); lia.
          -- exists m', C'. split; auto.
        * destruct Hc2 as (G1 & G2). rewrite G1, take_nil. cbn [fst snd]. rewrite app_nil_r. exists m2, (cset C j ([], [])). split; auto. unfold RI. rewrite F1, F2, F3. split; [exact Hq|split; [apply (Hput ([], [])); auto|split; [exact Hst|]]]. unfold curr_ok. rewrite Ei, F3. splits; auto.
      + specialize (Hne ltac:(discriminate)).
        assert (HR1 : RI (put_tde m j e') (cset C j (t0, [])) (map (shift (bs j)) t0 ++ later C (x_state m) (S j)) []).
        { unfold RI, put_tde. cbn [x_te x_tdes x_state]. split; [exact Hq|split; [apply (Hput (t0, [])); auto|split; [exact Hst|]]]. unfold curr_ok. cbn [x_curr x_next x_base x_state]. rewrite Ej, cset_eq, later_cset by lia. cbn [fst snd]. splits; auto. }
        replace (x_base (put_tde m j e')) with (bs j) by (rewrite <- Hb; reflexivity). destruct (Nat.eqb_spec (length (y :: l)) req) as [Eq|Hneq].
        * rewrite (proj2 (Nat.eqb_eq (req - length (y :: l)) 0)) by lia. rewrite Hta. cbn [fst snd]. eexists _, _. split; [reflexivity|]. exact HR1.
        * rewrite (proj2 (Nat.eqb_neq (req - length (y :: l)) 0)) by lia. assert (t0 = []) by (apply Hsh; lia). subst t0. cbn [map app] in HR1.
          destruct (IH (put_tde m j e') (cset C j ([], [])) (later C (x_state m) (S j)) (acc ++ map (fun y0 => (bs j + fst y0, snd y0)) (y :: l)) (req - length (y :: l))%nat HR1 ltac:(lia)) as (m' & C' & E2 & HR2).
          { unfold left_in, put_tde. cbn [x_curr x_next]. rewrite Ej, cset_eq. cbn [fst]. destruct (fst (C j)); [congruence|lia]. }
          rewrite E2. destruct (take_live (req - length (y :: l)) del (later C (x_state m) (S j))) as [r2 b2]. rewrite Hta. cbn [fst snd] in *. rewrite app_assoc. eexists _, _. split; [reflexivity|]. exact HR2.
    - pose proof HR as (_ & _ & _ & Hc). unfold curr_ok in Hc. rewrite Ej in Hc. destruct Hc as (-> & _). rewrite take_nil. cbn [fst snd]. rewrite app_nil_r. exists m, C. auto.
  Qed.
  Lemma pos_ok2 m C L rem x r : pos = true -> RI m C L rem -> rem = x :: r -> exists m' C', mtpe_next_position m = Some (x, m') /\ RI m' C' L r.
  Proof.
    intros Hp HR Hr. unfold mtpe_next_position. destruct (x_curr m) as [j|] eqn:Ej.
    - destruct (curr_info _ _ _ _ _ HR Ej) as (Hjn & Hb & Hn & e & v & g & y & Ee & Hv & Hg & Hx & Hrl & HB & Hk & Hs). rewrite Ee. cbn [obind]. pose proof HR as (Hq & Hsub & Hst & Hc). unfold curr_ok in Hc. rewrite Ej in Hc. destruct Hc as (_ & _ & _ & HL & Hrem).
      destruct (sub_pos (v_kn v) pos (fst g) (snd g) Hk Hs e (C j) x r Hp Hrl) as (e' & -> & Hrl'); [rewrite <- Hrem; auto|]. cbn [obind fst snd]. eexists _, (cset C j (fst (C j), r)). split; [reflexivity|]. unfold RI, put_tde. cbn [x_te x_tdes x_state]. splits; auto.
      + apply subr_put; auto. intros v' g' x' H1 H2 H3. assert (v' = v) by congruence. assert (g' = g) by congruence. subst. split; [exact Hrl'|exact HB].
      + unfold curr_ok. cbn [x_curr x_next x_base x_state]. rewrite Ej, cset_eq, later_cset by lia. cbn [fst snd]. splits; auto.
    - destruct HR as (_ & _ & _ & Hc). unfold curr_ok in Hc. rewrite Ej in Hc. destruct Hc as (_ & -> & _). discriminate.
  Qed.

  (* ---------- seeking *)
  Section SEEK.
    Variables (f : Z) (t : list Z).
    Hypothesis Hf : field_in mp (length srcs) f.
    Definition W (i : nat) : list post := match nth_error vs i with Some v => within mp f i v t | None => [] end.
    Lemma joined_eq : forall l k b, joined mp f t k b l = flat_map (fun i => match nth_error l i with Some v => map (shift (nth i (pstarts b l) 0)) (within mp f (k + i) v t) | None => [] end) (seq 0 (length l)).
    Proof.
      induction l as [|v l IH]; intros k b; [reflexivity|]. cbn [joined length seq flat_map nth_error pstarts nth]. rewrite Nat.add_0_r. f_equal. rewrite IH, <- seq_shift, flat_map_concat_map, flat_map_concat_map, map_map. f_equal. apply map_ext. intros i. cbn [nth_error nth]. rewrite Nat.add_succ_r. reflexivity.
    Qed.
    Lemma look_eq : look mp vs f t = flat_map (fun i => map (shift (bs i)) (W i)) (seq 0 n).
    Proof.
      unfold look. rewrite joined_eq, Hlen. rewrite !flat_map_concat_map. f_equal. apply map_ext. intros i. cbn [Nat.add]. unfold W, bs. destruct (nth_error vs i); reflexivity.
    Qed.
    Lemma Ls_terms i x : nth_error xs i = Some x -> Ls mp xs f i = terms_in mp f i x.
    Proof. intros H. unfold Ls. rewrite (lists_nth mp f xs O i x H). reflexivity. Qed.
    Lemma W_res i v g x r : (i < n)%nat -> nth_error vs i = Some v -> nth_error gs i = Some g -> nth_error xs i = Some x -> segrel v g x -> ti_res (Z.of_nat (v_kn v)) (Ls mp xs f i) t r -> found (v_kn v) (fst g) (W i) r.
    Proof.
      intros Hi Hv Hg Hx HZ Hr. unfold W. rewrite Hv. rewrite (Ls_terms i x Hx) in Hr. unfold terms_in, within in *. destruct (fnum mp i f) as [m|]; [destruct (0 <=? m)|].
      - destruct (z_ok _ _ _ HZ) as (_ & _ & Hk & _ & Hinv & _). eapply found_ok; eauto; exact (z_laid _ _ _ HZ).
      - destruct Hr as (_ & Hr). rewrite (Hr (fun H => H)). reflexivity.
      - destruct Hr as (_ & Hr). rewrite (Hr (fun H => H)). reflexivity.
    Qed.
    Lemma W_none i : (i < n)%nat -> holds (Ls mp xs f i) t = false -> W i = [].
    Proof.
      intros Hi Hh. destruct (pinfo i Hi) as (v & g & x & Hv & Hg & Hx & HZ). assert (H : found (v_kn v) (fst g) (W i) None); [|exact H]. eapply W_res; eauto. split; [|reflexivity]. intros j Hj. exfalso. assert (holds (Ls mp xs f i) t = true); [|congruence]. apply existsb_exists. exists (t, j). split; auto. apply seqb_spec. reflexivity.
    Qed.
    Lemma W_bound i v : nth_error vs i = Some v -> pseg_ok v -> Forall (fun p => fst p < v_size v) (W i).
    Proof. intros Hv (_ & _ & _ & _ & _ & _ & H). unfold W. rewrite Hv. unfold within. destruct (fnum mp i f) as [m|]; [destruct (0 <=? m); auto|]. constructor. Qed.
    Definition fresh (tdes : list tde) : Prop := pos = true -> Forall (fun e => p_pcnt e = 0) tdes.
    Lemma seek_all_ok : forall tis tdes st C,
      Forall (fun r => (fst r < n)%nat /\ forall v g x, nth_error vs (fst r) = Some v -> nth_error gs (fst r) = Some g -> segrel v g x -> found (v_kn v) (fst g) (W (fst r)) (Some (snd r))) tis ->
      subr C tdes -> fresh tdes -> length st = n -> (forall i, (i < n)%nat -> nth i st false = true -> C i = (W i, [])) ->
      exists tdes' st' C', seek_all pos gs tis tdes st = Some (tdes', st') /\ subr C' tdes' /\ fresh tdes' /\ length st' = n /\ (forall i, (i < n)%nat -> nth i st' false = true -> C' i = (W i, [])) /\
        (forall i, nth i st false = true \/ In i (map fst tis) -> nth i st' false = true).
    Proof.
      induction tis as [|[i j] tis IH]; intros tdes st C HF Hsub Hfr Hst HC.
      - exists tdes, st, C. cbn [seek_all]. splits; auto. intros i [H|[]]. exact H.
      - inversion HF as [|? ? (Hi & Hfound) HF']; subst. cbn [fst snd] in *. cbn [seek_all]. pose proof Hsub as (Hl & Hs). destruct (Hs i Hi) as (e & Ee & Hr). destruct (pinfo i Hi) as (v & g & x & Hv & Hg & Hx & HZ). rewrite Ee, Hg. cbn [obind].
        destruct (Hr v g x Hv Hg HZ) as (Hrl & HB). pose proof (z_ok _ _ _ HZ) as Hok. destruct (sub_seek_rel (v_kn v) pos (fst g) (snd g) ltac:(destruct Hok as (_ & _ & H & _); exact H) (z_skip _ _ _ HZ) e (C i) (W i) j Hrl) as (Hrl' & Hp').
        { intros Hp. specialize (Hfr Hp). rewrite Forall_forall in Hfr. apply Hfr. eapply nth_error_In; eauto. }
        { eapply Hfound; eauto. }
        assert (Eg : (fst g, snd g) = g) by (destruct g; reflexivity). rewrite Eg in *.
        destruct (IH (upd tdes i (sub_seek pos g e j)) (upd st i true) (cset C i (W i, []))) as (tdes' & st' & C' & E & G1 & G2 & G3 & G4 & G5); auto.
        + apply subr_put; auto. intros v' g' x' H1 H2 H3. assert (v' = v) by congruence. assert (g' = g) by congruence. subst. split; [exact Hrl'|]. cbn [fst]. apply W_bound; auto.
        + intros Hp. apply Forall_upd1; auto.
        + rewrite upd_length. auto.
        + intros k Hk Hkt. unfold cset. destruct (Nat.eqb_spec k i) as [->|Hne]; auto. apply HC; auto. rewrite nth_upd_neq in Hkt by auto. exact Hkt.
        + exists tdes', st', C'. splits; auto. intros k [H|[<-|H]]; apply G5; auto; left.
          * destruct (Nat.eq_dec k i) as [->|Hne]; [apply nth_upd_eq; lia|rewrite nth_upd_neq; auto].
          * apply nth_upd_eq. lia.
    Qed.
    Lemma look_later C st : (forall i, (i < n)%nat -> nth i st false = true -> C i = (W i, [])) -> (forall i, (i < n)%nat -> nth i st false = false -> W i = []) -> later C st 0 = look mp vs f t.
    Proof.
      intros H1 H2. rewrite look_eq. unfold later. rewrite Nat.sub_0_r, !flat_map_concat_map. f_equal. apply map_ext_in. intros i Hi. apply in_seq in Hi. destruct (nth i st false) eqn:E; [rewrite H1 by (auto; lia); reflexivity|]. rewrite H2 by (auto; lia). reflexivity.
    Qed.
    Lemma look_absent : ~ In t (union (lists mp f O xs)) -> look mp vs f t = [].
    Proof.
      intros Hn. rewrite look_eq. assert (G : forall i, In i (seq 0 n) -> W i = []).
      { intros i Hi. apply in_seq in Hi. apply W_none; [lia|]. destruct (holds (Ls mp xs f i) t) eqn:E; auto. exfalso. apply Hn. apply existsb_exists in E. destruct E as (e & He & Ee). apply seqb_spec in Ee. subst t. eapply Ls_union. exact He. }
      induction (seq 0 n) as [|i l IH]; auto. cbn [flat_map]. rewrite G by (left; auto). cbn [map app]. apply IH. intros k Hk. apply G. right. auto.
    Qed.
    (* mtde_seek_te on an enumerator that stands on t *)
    Lemma seek_te_ok m C m2 qc : (exists qc, cinv mp xs srcs qc (x_te m)) -> subr C (x_tdes m) -> fresh (x_tdes m) -> cinv mp xs srcs qc m2 -> Forall2 (tirel mp xs f t) (hs mp xs srcs f t) (q_tis m2) ->
      exists m' C', seek_te pos gs starts (mkMtd m2 (x_tdes m) (x_state m) (x_base m) (x_next m) (x_curr m)) = Some m' /\ RI m' C' (look mp vs f t) [] /\ fresh (x_tdes m') /\ x_te m' = m2.
    Proof.
      intros _ Hsub Hfr HQ HT. unfold seek_te. cbn [x_te x_tdes x_curr].
    destruct (seek_all_ok (rev (q_tis m2)) (x_tdes m) (repeat false n) C) as (tdes' & st' & C' & E4 & G1 & G2 & G3 & G4 & G5); auto.
    * apply Forall_rev. apply Forall_forall. intros [i j] Hin. destruct (Forall2_in_r _ _ _ _ HT Hin) as (i' & Hi' & Ei & x & e & Hx & Hfe & Hsame). cbn [fst snd] in *. subst i'. apply hs_in in Hi'. rewrite srcs_len in Hi'. destruct Hi' as (Hi & _). split; auto. intros v g y Hv Hg HZ.
      destruct (pinfo i Hi) as (v' & g' & x' & Hv' & Hg' & Hx' & HZ'). assert (v' = v) by congruence. assert (g' = g) by congruence. assert (x' = x) by congruence. subst.
      eapply W_res; eauto. destruct (z_x _ _ _ HZ') as (_ & Esk). rewrite Esk in Hsame. split; [|intros Hno; exfalso; apply Hno; apply find_some in Hfe; destruct Hfe as (F1 & F2); apply seqb_spec in F2; subst t; apply in_map; exact F1].
      intros i0 Hi0. exists j. split; auto. assert (e = (t, i0)); [|subst e; exact Hsame]. apply find_some in Hfe. destruct Hfe as (F1 & F2). apply seqb_spec in F2. pose proof (Ls_sorted mp xs srcs Hsrc f Hf i) as HS.
      apply In_nth_error in F1. apply In_nth_error in Hi0. destruct F1 as (k1 & F1), Hi0 as (k2 & F3). destruct (Nat.lt_trichotomy k1 k2) as [Hlt|[Heq|Hlt]]; [| subst; congruence|].
      -- pose proof (sorted_nth _ HS _ _ _ _ F1 F3 Hlt) as Hsl. cbn [fst] in Hsl. rewrite F2 in Hsl. exfalso. eapply slt_irr; eauto.
      -- pose proof (sorted_nth _ HS _ _ _ _ F3 F1 Hlt) as Hsl. cbn [fst] in Hsl. rewrite F2 in Hsl. exfalso. eapply slt_irr; eauto.
    * apply repeat_length.
    * intros i Hi. rewrite nth_repeat. discriminate.
    * rewrite E4. cbn [obind fst snd].
      assert (HLL : later C' st' 0 = look mp vs f t).
      { apply look_later; auto. intros i Hi Hs0. apply W_none; auto. destruct (holds (Ls mp xs f i) t) eqn:Eh; auto. exfalso. rewrite G5 in Hs0; [discriminate|]. right. rewrite map_rev, <- in_rev.
        assert (Hh : In i (hs mp xs srcs f t)) by (apply hs_in; rewrite srcs_len; auto). clear -HT Hh. induction HT as [|a r l l' H1 H2 IH]; [destruct Hh|]. destruct H1 as (H1 & _). cbn [map In]. destruct Hh as [<-|Hh]; auto. }
      destruct (next_tde_ok (mkMtd m2 tdes' st' 0 0 (x_curr m)) C') as (m' & E5 & F1 & F2 & F3 & Hc2); auto; [exists qc; exact HQ|]. cbn [x_te x_tdes x_state x_next] in *. rewrite E5. exists m', C'. split; [reflexivity|]. assert (Hfr' : fresh (x_tdes m')) by (rewrite F2; exact G2). split; [|split; [exact Hfr'|exact F1]].
      unfold RI. rewrite F1, F2, F3. splits; auto; [exists qc; exact HQ|]. unfold curr_ok. rewrite F3. destruct (x_curr m') as [j|].
      -- destruct Hc2 as (H1 & H2 & H3 & H4 & H5). splits; auto; [lia|congruence|]. intros _. rewrite G4 by (auto; lia). reflexivity.
      -- destruct Hc2 as (H1 & H2). splits; auto. congruence.
    Qed.
    Lemma seek_ok m C L rem : RI m C L rem -> fresh (x_tdes m) -> look mp vs f t <> [] \/ L = [] -> (pos = true -> x_curr m = None) ->
      exists m' C', mtde_seek pos gs starts mp m f t = Some m' /\ RI m' C' (look mp vs f t) [].
    Proof.
      intros HR Hfr Hlk Hnone. pose proof HR as (((f0 & p0) & Hf0 & capa & HV) & Hsub & Hst & Hc). unfold mtde_seek. cbn [fst snd] in HV. pose proof HV as ((Hl & _) & qm & HI & _).
      destruct (set_ok mp xs srcs Hsrc f Hf capa _ _ _ Hl HI) as (q' & subs' & E & HV1). unfold mte_set_field. rewrite E. cbn [obind fst snd].
      destruct (skip_ok mp xs srcs Hsrc f Hf capa _ _ t (HV1 [] 0 [])) as (q2 & subs2 & E2 & HV2).
      unfold mte_skip_to. cbn [q_subs q_te q_term q_df q_tis] in *. rewrite E2. cbn [obind fst snd].
      pose proof (next_inv mp xs srcs Hsrc f Hf capa _ _ (HV2 (q_term (x_te m)) (q_df (x_te m)) (q_tis (x_te m)))) as HN. set (M := union (lists mp f 0 xs)) in *.
      (* nothing is found *)
      assert (Hmiss : forall q, cinv mp xs srcs (f, S (below M t)) q -> ~ In t M -> RI (mkMtd q (x_tdes m) (repeat false n) (x_base m) (x_next m) (x_curr m)) C (look mp vs f t) []).
      { intros q Hq Hn. pose proof (look_absent Hn) as E0. destruct Hlk as [Hlk|HL]; [congruence|]. subst L. rewrite E0. unfold RI. cbn [x_te x_tdes x_state]. splits; auto; [eexists; exact Hq|apply repeat_length|].
        unfold curr_ok in *. cbn [x_curr x_next x_base x_state] in *. assert (Z0 : forall k, nth k (repeat false n) false = false) by (intros k; apply nth_repeat).
        destruct (x_curr m) as [j|]; [|splits; auto]. destruct Hc as (A & B & D & HL & Hrem). symmetry in HL. apply app_eq_nil in HL. destruct HL as (HL1 & _). splits; auto.
        - rewrite HL1. cbn [app]. unfold later. induction (seq (S j) (n - S j)) as [|a l IH]; auto. cbn [flat_map]. rewrite Z0. exact IH.
        - intros Hp. specialize (Hnone Hp). discriminate. }
      assert (Hpos : forall k, nth_error M k = Some t -> k = below M t).
      { intros k Hk. pose proof (below_nth M k t t (union_sorted _) Hk) as Hb. rewrite (proj2 (sltb_ge t t) (sle_refl t)) in Hb. symmetry in Hb. apply Nat.ltb_ge in Hb. destruct (Nat.eq_dec k (below M t)) as [|Hne]; auto. exfalso.
        destruct (nth_error M (below M t)) as [u|] eqn:Eu; [|apply nth_error_None in Eu; assert (nth_error M k <> None) as Hk2 by congruence; apply nth_error_Some in Hk2; lia].
        pose proof (sorted_lt M (union_sorted _) _ _ _ _ Eu Hk ltac:(lia)) as Hlt. pose proof (below_nth M _ u t (union_sorted _) Eu) as Hb2. rewrite Nat.ltb_irrefl in Hb2. apply sltb_ge in Hb2. eapply slt_irr. eapply sle_lt_trans; eauto. }
      destruct (nth_error M (below M t)) as [u|] eqn:Eu.
      - destruct HN as (m2 & E3 & HV3 & _ & _ & HT). rewrite E3. cbn [obind fst snd]. destruct (seqb t u) eqn:Es.
        + apply seqb_spec in Es. subst u. destruct (seek_te_ok m C m2 (f, S (below M t))) as (m' & C' & E4 & HR' & _); auto; [exists (f0, p0); split; auto; exists capa; exact HV|split; auto; exists capa; exact HV3|]. exists m', C'. auto.
        + eexists _, C. split; [reflexivity|]. apply Hmiss; [split; auto; exists capa; exact HV3|]. intros Hin. apply in_index in Hin. destruct Hin as (k & Hk). rewrite (Hpos k Hk), Eu in Hk. apply some_inj in Hk. subst u. rewrite (proj2 (seqb_spec t t) eq_refl) in Es. discriminate.
      - destruct HN as (m2 & E3 & HV3 & _). rewrite E3. cbn [obind fst snd]. eexists _, C. split; [reflexivity|]. apply Hmiss.
        + split; auto. exists capa. cbn [fst snd]. fold M. rewrite (proj2 (nth_error_None M (S (below M t)))); [exact HV3|]. apply nth_error_None in Eu. lia.
        + intros Hin. apply in_index in Hin. destruct Hin as (k & Hk). rewrite (Hpos k Hk) in Hk. congruence.
    Qed.
  End SEEK.

  (* ---------- histories *)
  Lemma rel_new kn g : rel kn pos g (tde_new (g_frq g) (g_prx g)) ([], []).
  Proof. left. cbn. splits; auto; try lia. intros. splits; auto; lia. Qed.
  Lemma new_ok3 : field_in mp n 0 -> exists m, mtde_new gs mp = Some m /\ RI m (fun _ => ([], [])) [] [] /\ fresh (x_tdes m) /\ x_curr m = None.
  Proof.
    intros H0. unfold mtde_new. assert (H0' : field_in mp (length srcs) 0) by (rewrite srcs_len; exact H0). destruct (new_ok_none mp xs srcs Hsrc 0 H0') as (q & E & HV). rewrite E. cbn [obind snd]. eexists. split; [reflexivity|]. cbn [x_tdes x_curr]. splits; auto.
    - unfold RI. cbn [x_te x_tdes x_state]. splits.
      + exists (0, O). split; auto. exists (length srcs). exact HV.
      + split; [apply map_length|]. intros i Hi. destruct (pinfo i Hi) as (v & g & x & Hv & Hg & Hx & HZ). rewrite nth_error_map, Hg. cbn [option_map]. eexists. split; [reflexivity|]. intros v' g' x' H1 H2 H3. assert (g' = g) by congruence. subst g'. split; [apply rel_new|constructor].
      + apply repeat_length.
      + unfold curr_ok. cbn [x_curr x_next x_state]. splits; auto. intros. apply nth_repeat.
    - intros _. apply Forall_forall. intros e He. apply in_map_iff in He. destruct He as (g & <- & _). reflexivity.
  Qed.
  Lemma fuel_next m C L rem : RI m C L rem -> (match x_curr m with Some _ => S (n - x_next m) < S (S n) | None => 0 < S (S n) end)%nat /\ (n - x_next m < S (S n))%nat /\ (left_in m C < 2 * n + 2)%nat.
  Proof.
    intros (_ & _ & _ & Hc). unfold curr_ok, left_in in *. destruct (x_curr m) as [j|]; [destruct Hc as (Hn & Hj & _); rewrite Hn; destruct (fst (C j)); lia|lia].
  Qed.
  Lemma move_ok m C c o : RI m C (fst c) (snd c) -> match o with PNext _ | PSkip _ _ => True | PRead _ k => pos = false /\ (1 <= k)%nat | PPos => pos = true /\ snd c <> [] | PSeek _ _ => False end ->
    exists m' C', mtde_step pos gs starts mp m o = Some (fst (pspec_step [] c o), m') /\ RI m' C' (fst (snd (pspec_step [] c o))) (snd (snd (pspec_step [] c o))).
  Proof.
    intros HR Ho. destruct (fuel_next _ _ _ _ HR) as (F1 & F2 & F3). destruct o as [f t|del|del target|del k|]; [destruct Ho| | | |]; cbn [mtde_step pspec_step].
    - destruct (next_ok2 del (S (S n)) m C _ _ F2 HR) as (r & m' & E & HS). rewrite E. cbn [obind fst snd]. unfold stepped, spec_move in *. destruct (first_ok (fun d => negb (del d)) (fst c)) as [[p t]|]; destruct HS as (-> & C' & HR'); exists m', C'; split; auto.
    - destruct (skip_ok2 del target (S (S n)) m C _ _ HR F1) as (r & m' & E & HS). rewrite E. cbn [obind fst snd]. unfold stepped, spec_move in *. destruct (first_ok (fun d => negb (del d) && (target <=? d)) (fst c)) as [[p t]|]; destruct HS as (-> & C' & HR'); exists m', C'; split; auto.
    - destruct Ho as (Hp & Hk). destruct (read_ok2 del Hp (2 * n + 2) m C (fst c) [] k (RI_rem _ _ _ _ Hp HR) Hk F3) as (m' & C' & E & HR'). rewrite E. cbn [obind fst snd app]. destruct (take_live k del (fst c)) as [r t]. exists m', C'. split; auto.
    - destruct Ho as (Hp & Hr). destruct (snd c) as [|x r] eqn:Ec; [congruence|]. destruct (pos_ok2 m C _ _ x r Hp HR eq_refl) as (m' & C' & E & HR'). rewrite E. cbn [obind fst snd]. exists m', C'. split; auto.
  Qed.
  Lemma docs_run : pos = false -> forall os m C c, RI m C (fst c) (snd c) -> docs_ok mp vs c os -> mtde_run pos gs starts mp m os = Some (mspec_run mp vs c os).
  Proof.
    intros Hp. induction os as [|o os IH]; intros m C c HR Ho; [reflexivity|]. destruct Ho as (Ho & Hos). cbn [mtde_run mspec_run].
    assert (HS : exists m' C', mtde_step pos gs starts mp m o = Some (fst (mspec_step mp vs c o), m') /\ RI m' C' (fst (snd (mspec_step mp vs c o))) (snd (snd (mspec_step mp vs c o)))).
    { destruct o as [f t|del|del target|del k|]; [| | | |destruct Ho].
      - destruct Ho as (Hf & Hl). cbn [mtde_step mspec_step fst snd]. rewrite Hlen, <- srcs_len in Hf. destruct (seek_ok f t Hf m C _ _ HR) as (m' & C' & E & HR'); auto; [intros H; congruence|congruence|]. rewrite E. cbn [obind]. exists m', C'. auto.
      - apply (move_ok m C c (PNext del) HR Logic.I).
      - apply (move_ok m C c (PSkip del target) HR Logic.I).
      - apply (move_ok m C c (PRead del k) HR (conj Hp Ho)). }
    destruct HS as (m' & C' & E & HR'). rewrite E. cbn [obind fst snd]. rewrite (IH m' C' _ HR' Hos). cbn [obind]. destruct (mspec_step mp vs c o). reflexivity.
  Qed.
  Lemma pos_run : pos = true -> forall os m C c, RI m C (fst c) (snd c) -> pos_ok c os -> mtde_run pos gs starts mp m os = Some (pspec_run [] c os).
  Proof.
    intros Hp. induction os as [|o os IH]; intros m C c HR Ho; [reflexivity|]. destruct Ho as (Ho & Hos). cbn [mtde_run pspec_run].
    destruct (move_ok m C c o HR) as (m' & C' & E & HR'); [destruct o; tauto|]. rewrite E. cbn [obind fst snd]. rewrite (IH m' C' _ HR' Hos). cbn [obind]. destruct (pspec_step [] c o). reflexivity.
  Qed.
End M.

Theorem docs_follow mp vs gs os : Forall pseg_ok vs -> Forall2 popened vs gs -> field_in mp (length vs) 0 -> docs_ok mp vs ([], []) os ->
  exists m, mtde_new gs mp = Some m /\ mtde_run false gs (pstarts 0 vs) mp m os = Some (mspec_run mp vs ([], []) os).
Proof.
  intros HF HO H0 Hos. destruct (Forall3_of vs gs HF HO) as (xs & Hrel & Hlen). rewrite Hlen in H0. destruct (new_ok3 mp vs gs xs false Hlen Hrel H0) as (m & E & HR & _). exists m. split; auto. eapply docs_run; eauto.
Qed.
Theorem positions_follow mp vs gs f t os : Forall pseg_ok vs -> Forall2 popened vs gs -> field_in mp (length vs) 0 -> field_in mp (length vs) f -> pos_ok (look mp vs f t, []) os ->
  exists m, mtde_new gs mp = Some m /\ mtde_run true gs (pstarts 0 vs) mp m (PSeek f t :: os) = Some (mspec_run mp vs ([], []) (PSeek f t :: os)).
Proof.
  intros HF HO H0 Hf Hos. destruct (Forall3_of vs gs HF HO) as (xs & Hrel & Hlen). rewrite Hlen in H0, Hf. destruct (new_ok3 mp vs gs xs true Hlen Hrel H0) as (m & E & HR & Hfr & Hn). exists m. split; auto.
  assert (Hf' : field_in mp (length (map dict_of gs)) f) by (rewrite map_length; exact Hf). destruct (seek_ok mp vs gs xs true Hlen Hrel f t Hf' m _ _ _ HR Hfr (or_intror eq_refl) (fun _ => Hn)) as (m' & C' & E' & HR'). cbn [mtde_run mtde_step mspec_run mspec_step]. rewrite E'. cbn [obind fst snd].
  rewrite (pos_run mp vs gs xs true Hlen Hrel eq_refl os m' C' (look mp vs f t, []) HR' Hos). cbn [obind]. do 2 f_equal. clear -Hos. revert Hos. generalize (look mp vs f t, @nil Z). induction os as [|o os IH]; intros c Hos; [reflexivity|]. destruct Hos as (Ho & Hos). cbn [mspec_run pspec_run].
  assert (E : mspec_step mp vs c o = pspec_step [] c o) by (destruct o; auto; destruct Ho). rewrite E. destruct (pspec_step [] c o) as [r c'] eqn:Ep. cbn [fst snd] in Hos. rewrite (IH c' Hos). reflexivity.
Qed.
(* what the joined list is: the documents of the segments in order *)
Lemma joined_in mp f t : forall vs k b p, In p (joined mp f t k b vs) <-> exists i v q, nth_error vs i = Some v /\ In q (within mp f (k + i) v t) /\ p = shift (nth i (pstarts b vs) 0) q.
Proof.
  intros vs k b p. rewrite joined_eq, in_flat_map. split.
  - intros (i & _ & Hi). destruct (nth_error vs i) as [v|] eqn:Ev; [|destruct Hi]. apply in_map_iff in Hi. destruct Hi as (q & <- & Hq). exists i, v, q. auto.
  - intros (i & v & q & Hv & Hq & ->). exists i. assert (nth_error vs i <> None) as Hs by congruence. apply nth_error_Some in Hs. split; [apply in_seq; lia|]. rewrite Hv. apply in_map. auto.
Qed.
Lemma postings_ok fs m t : inv_ok fs -> plist_ok (postings fs m t).
Proof.
  intros (I1 & _). assert (H0 : plist_ok []) by (split; [constructor|split; [constructor|cbn; lia]]). unfold postings. destruct (find (fun x => fst x =? m) fs) as [[k l]|] eqn:E1; auto. apply find_some in E1. destruct E1 as (E1 & _). rewrite Forall_forall in I1. destruct (I1 _ E1) as (_ & I2 & _). cbn [snd] in I2.
  destruct (find (fun x => seqb (fst x) t) l) as [[u ps]|] eqn:E2; auto. apply find_some in E2. destruct E2 as (E2 & _). rewrite Forall_forall in I2. exact (proj2 (I2 _ E2)).
Qed.
Lemma sorted_app {A} (R : A -> A -> Prop) a b : StronglySorted R a -> StronglySorted R b -> (forall x y, In x a -> In y b -> R x y) -> StronglySorted R (a ++ b).
Proof.
  intros Ha Hb H. induction Ha as [|x a Ha IH HF]; cbn [app]; auto. constructor; [apply IH; intros; apply H; auto; right; auto|]. apply Forall_app. split; auto. apply Forall_forall. intros y Hy. apply H; auto. left. auto.
Qed.
Lemma joined_sorted mp f t : forall vs k b, Forall pseg_ok vs -> StronglySorted (fun x y => fst x < fst y) (joined mp f t k b vs) /\ Forall (fun p => b <= fst p) (joined mp f t k b vs).
Proof.
  induction vs as [|v vs IH]; intros k b HF; [split; constructor|]. pose proof (Forall_inv HF) as (_ & _ & _ & _ & Hinv & Hsz & Hb). destruct (IH (S k) (b + v_size v) (Forall_inv_tail HF)) as (IH1 & IH2). cbn [joined].
  assert (HW : plist_ok (within mp f k v t) /\ Forall (fun p => fst p < v_size v) (within mp f k v t)).
  { unfold within. assert (plist_ok [] /\ Forall (fun p : post => fst p < v_size v) []) by (split; [split; [constructor|split; [constructor|cbn; lia]]|constructor]). destruct (fnum mp k f) as [m|]; auto. destruct (0 <=? m); auto. split; [apply postings_ok; auto|apply Hb]. }
  destruct HW as ((W1 & W2 & _) & W3). split.
  - apply sorted_app; auto.
    + clear -W2. induction W2 as [|p l HS IHS HF]; cbn [map]; constructor; auto. rewrite Forall_forall in *. intros q Hq. apply in_map_iff in Hq. destruct Hq as (r & <- & Hr). cbn [shift fst]. specialize (HF r Hr). lia.
    + intros x y Hx Hy. apply in_map_iff in Hx. destruct Hx as (q & <- & Hq). rewrite Forall_forall in *. specialize (W3 q Hq). specialize (IH2 y Hy). cbn [shift fst]. lia.
  - apply Forall_app. split.
    + rewrite Forall_forall in *. intros x Hx. apply in_map_iff in Hx. destruct Hx as (q & <- & Hq). destruct (W1 q Hq) as (H & _). cbn [shift fst]. lia.
    + eapply Forall_impl; [|exact IH2]. cbn beta. intros; lia.
Qed.
Theorem joined_spec mp vs f t : Forall pseg_ok vs -> StronglySorted (fun x y => fst x < fst y) (look mp vs f t) /\
  forall p, In p (look mp vs f t) <-> exists i v q, nth_error vs i = Some v /\ In q (within mp f i v t) /\ p = shift (nth i (pstarts 0 vs) 0) q.
Proof. intros HF. split; [apply joined_sorted; auto|]. intros p. apply (joined_in mp f t vs O 0 p). Qed.
Theorem popened_all vs : Forall pseg_ok vs -> exists gs, Forall2 popened vs gs.
Proof.
  induction 1 as [|v vs (H1 & H2 & H3 & H4 & H5 & _) _ (gs & IH)]; [exists []; constructor|]. destruct (post_run (v_int v) (v_kn v) (v_fs v) H1 H2 ltac:(lia) H4 H5) as (g & s & E1 & E2 & _). exists ((g, s) :: gs). constructor; auto. split; auto.
Qed.
