From Coq Require Import List ZArith Bool Arith Lia.
From Verif Require Import Util Text_Model Text_Spec Text_Proofs TextQ_Proofs.
Import ListNotations.
Open Scope Z_scope.

(* several terms *)
Lemma tail_len : forall b, finite_b b -> (length (tail b) <= 16)%nat.
Proof. intros [x|] H; cbn [tail length]; [|lia]. pose proof (number_length x H). lia. Qed.
Fixpoint tsum (ts : list (str * boost)) : nat := match ts with [] => O | t :: ts' => (length (fst t) + 35 + tsum ts')%nat end.
Lemma tsum_eq : forall ts : list (str * boost), fold_right (fun t n => length (fst t) + 35 + n)%nat O ts = tsum ts.
Proof. intros ts. induction ts as [|t ts IH]; cbn [fold_right tsum]; [reflexivity|]. rewrite <- IH. reflexivity. Qed.
Lemma mt_loop_ok : forall ts c s n, Forall (fun t => clean (fst t) /\ finite_b (snd t)) ts -> at_ c s n ->
  (length s + tsum ts <= n)%nat ->
  exists c', mt_loop ts c = Some c' /\ at_ c' (s ++ words (map (fun t => fst t ++ tail (snd t)) ts)) n.
Proof.
  intros ts. induction ts as [|[t b] ts IH]; intros c s n HF H L; cbn [mt_loop map].
  - exists c. unfold words. cbn [map concat]. rewrite app_nil_r. auto.
  - inversion HF as [|? ? (Ht & Hb) HF']; subst. cbn [fst snd tsum] in *. pose proof (tail_len b Hb) as Lt.
    destruct (print_ok c s n t H) as (c1 & E1 & H1); [lia|]. rewrite E1. cbn [obind]. apply ended_at in H1.
    assert (G : exists c2, (match b with
               | None => Some c1
               | Some x =>
                   do c' <- app c1 [94];
                   do m <- dbl_to_s (fst c') (snd c') x;
                   do s <- cstr (skipn (snd c') m);
                   Some (m, (snd c' + length s)%nat)
               end) = Some c2 /\ at_ c2 ((s ++ t) ++ tail b) n).
    { destruct b as [x|]; [|exists c1; split; [reflexivity|cbn [tail]; rewrite app_nil_r; exact H1]].
      cbn [finite_b] in Hb. pose proof (number_length x Hb) as Lx.
      destruct (app_ok c1 _ n [94] H1) as (c2 & E2 & H2); [len; lia|]. rewrite E2. cbn [obind].
      destruct (dbl_ok c2 _ n x H2 Hb) as (m & E3 & H3); [len; lia|]. rewrite E3. cbn [obind].
      assert (Es : snd c2 = length ((s ++ t) ++ [94])) by (destruct H2 as (r & _ & H2 & _); exact H2). rewrite Es.
      rewrite (cstr_end _ _ _ _ _ H3 (finite_clean x Hb)). cbn [obind]. eexists. split; [reflexivity|]. apply ended_at in H3. replace ((s ++ t) ++ tail (Some x)) with (((s ++ t) ++ [94]) ++ number x) by (rewrite <- app_assoc; reflexivity). exact H3. }
    destruct G as (c2 & E2 & H2). rewrite E2. cbn [obind].
    destruct (app_ok c2 _ n [124] H2) as (c3 & E3 & H3); [len; lia|]. rewrite E3. cbn [obind].
    destruct (IH c3 _ n HF' H3) as (c4 & E4 & H4); [len; lia|]. exists c4. split; [exact E4|]. unfold words in *. cbn [map concat]. rewrite <- !app_assoc in *. exact H4.
Qed.
Lemma terms_clean : forall ts, Forall (fun t : str * boost => clean (fst t) /\ finite_b (snd t)) ts -> Forall clean (map (fun t => fst t ++ tail (snd t)) ts).
Proof. intros ts H. induction H as [|t ts (H1 & H2) H IH]; cbn [map]; constructor; [apply clean_app; [exact H1|apply tail_clean, H2]|exact IH]. Qed.
Lemma multi_tq_ok : forall df f ts b, clean f -> Forall (fun t => clean (fst t) /\ finite_b (snd t)) ts -> finite_b b ->
  gives (multi_tq_to_s df f ts b) (named df f ++ [34] ++ join [124] (map (fun t => fst t ++ tail (snd t)) ts) ++ [34] ++ tail b).
Proof.
  intros df f ts b Hf HT Hb. unfold multi_tq_to_s, gives. cbv zeta. pose proof (named_len df f) as L. pose proof (named_clean df f Hf) as Cn. pose proof (terms_clean ts HT) as CT.
  match goal with |- context [alloc ?n] => set (N := n) end. assert (HN : N = (tsum ts + length f + 35)%nat) by (unfold N; rewrite <- (tsum_eq ts); reflexivity). clearbody N.
  destruct (named_print df f N) as (c1 & E1 & H1); [lia|]. rewrite E1. cbn [obind].
  destruct (app_ok c1 _ _ [34] H1) as (c2 & E2 & H2); [len; lia|]. rewrite E2. cbn [obind].
  destruct (mt_loop_ok ts c2 _ N HT H2) as (c3 & E3 & H3); [len; lia|]. rewrite E3. cbn [obind].
  set (ws := map (fun t => fst t ++ tail (snd t)) ts) in *.
  assert (LW : (length (words ws) + 18 * length ts <= tsum ts)%nat).
  { unfold ws. clear - HT. induction HT as [|[w bb] ts (H1 & H2) H IH]; unfold words in *; cbn [map concat tsum length fst snd] in *; [lia|]. pose proof (tail_len _ H2). len. lia. }
  assert (Es : (snd c3 =? 0)%nat = false) by (apply Nat.eqb_neq; destruct H3 as (r & _ & H3 & _); rewrite H3; len; lia). rewrite Es.
  set (body := named df f ++ [34] ++ join [124] ws).
  assert (CB : clean body). { apply clean_app; [exact Cn|]. apply clean_app; [bytes|]. apply join_clean; [bytes|exact CT]. }
  assert (G : exists x m p, nth_error (fst c3) (snd c3 - 1) = Some (Some x) /\ p = (if x =? 34 then S (snd c3) else snd c3) /\ store (fst c3) (p - 1) [34] = Some m /\ at_ (m, p) (body ++ [34]) N).
  { destruct ts as [|t0 ts0].
    - exists 34. destruct H3 as (r & Hm & Hi & Hl). unfold ws, words in *. cbn [map concat] in *. rewrite app_nil_r in Hm, Hi.
      rewrite Z.eqb_refl. assert (A : at_ c3 (named df f ++ [34]) N) by (exists r; auto).
      destruct (app_ok c3 _ N [34] A) as (c4 & E4 & H4); [len; lia|]. unfold app in E4.
      destruct (store (fst c3) (snd c3) [34]) as [m|] eqn:Est; [|discriminate]. cbn [obind length] in E4. apply some_inj in E4. subst c4. exists m, (S (snd c3)).
      split; [|split; [reflexivity|split; [replace (S (snd c3) - 1)%nat with (snd c3) by lia; exact Est|]]].
      + rewrite Hm, Hi, map_app, <- app_assoc. len. replace (length (named df f) + 1 - 1)%nat with (length (map (@Some Z) (named df f))) by (rewrite map_length; lia).
        rewrite nth_error_app2 by lia. rewrite Nat.sub_diag. reflexivity.
      + replace (S (snd c3)) with (snd c3 + 1)%nat by lia. unfold body. cbn [join map]. rewrite app_nil_r. exact H4.
    - exists 124. rewrite words_join, app_assoc in H3 by discriminate. destruct (set_last c3 _ 124 34 N H3) as (m & E4 & H4). exists m, (snd c3).
      split; [|split; [reflexivity|split; [exact E4|]]].
      + destruct H3 as (r & Hm & Hi & Hl). rewrite Hm, Hi, map_app, <- app_assoc. rewrite app_length. cbn [length].
        match goal with |- nth_error (map Some ?x ++ _) _ = _ => replace (length x + 1 - 1)%nat with (length (map (@Some Z) x)) by (rewrite map_length; lia) end.
        rewrite nth_error_app2 by lia. rewrite Nat.sub_diag. reflexivity.
      + unfold body. rewrite <- !app_assoc in *. exact H4. }
  destruct G as (x & m & p & E4 & Ep & E5 & H5). rewrite E4. cbn [obind]. rewrite <- Ep, E5. cbn [obind].
  assert (LB : (length body + 25 <= N)%nat).
  { unfold body. destruct ts as [|t0 ts0]; [cbn [map join ws] in *; len; lia|]. rewrite words_join in LW by discriminate. len. lia. }
  destruct (nul_ok _ _ _ H5) as (c6 & E6 & H6); [len; lia|]. rewrite E6. cbn [obind].
  replace (named df f ++ [34] ++ join [124] ws ++ [34] ++ tail b) with ((body ++ [34]) ++ tail b) by (unfold body; rewrite <- !app_assoc; reflexivity).
  eapply boosted_ended; [exact H6|exact Hb|len; lia|]. apply clean_app; [exact CB|bytes].
Qed.

(* spans *)
Fixpoint listed (first : bool) (l : list str) : str :=
  match l with [] => [] | s :: l' => (if first then [] else [44]) ++ s ++ listed false l' end.
Lemma listed_join : forall l, listed true l = join [44] l.
Proof.
  assert (G : forall l, listed false l = match l with [] => [] | _ => [44] ++ join [44] l end).
  { induction l as [|s l IH]; [reflexivity|]. cbn [listed join]. rewrite IH. destruct l; [rewrite app_nil_r|]; reflexivity. }
  intros [|s l]; [reflexivity|]. cbn [listed join]. rewrite G. destruct l; [rewrite app_nil_r|]; reflexivity.
Qed.
Lemma smt_loop_ok : forall ts first c s n, at_ c s n -> (length s + length (listed first ts) < n)%nat ->
  exists c', smt_loop first ts c = Some c' /\ at_ c' (s ++ listed first ts) n.
Proof.
  intros ts. induction ts as [|t ts IH]; intros first c s n H L; cbn [smt_loop listed] in *.
  - exists c. rewrite app_nil_r. auto.
  - match goal with |- context [app c ?l] => destruct (app_ok c s n l H) as (c1 & E1 & H1); [destruct first; len; lia|] end. rewrite E1. cbn [obind].
    destruct (print_ok c1 _ n t H1) as (c2 & E2 & H2); [destruct first; len; lia|]. rewrite E2. cbn [obind].
    destruct (IH false c2 _ n (ended_at _ _ _ H2)) as (c3 & E3 & H3); [destruct first; len; lia|]. exists c3. rewrite <- !app_assoc in H3. auto.
Qed.
Lemma listed_len : forall l, (length (join [44%Z] l) + 1 <= fold_right (fun t n => length t + 1 + n)%nat 1%nat l)%nat.
Proof.
  intros l. induction l as [|s l IH]; cbn [join fold_right length]; [lia|]. destruct l; [cbn [fold_right] in *; lia|]. len. lia.
Qed.
Lemma join_len : forall l, l <> [] -> (length (join [44%Z] l) + 2 = fold_right (fun t n => length t + 1 + n)%nat 1%nat l)%nat.
Proof.
  intros l H. induction l as [|s l IH]; [congruence|]. cbn [join fold_right]. destruct l as [|s' l]; [cbn [fold_right]; lia|]. rewrite <- IH by discriminate. len. lia.
Qed.
Lemma sum_more : forall (l : list str) k, (fold_right (fun t n => length t + 1 + n)%nat 1%nat l + k <= fold_right (fun t n => length t + 2 + n)%nat (1 + k)%nat l)%nat.
Proof. intros l k. induction l as [|s l IH]; cbn [fold_right]; lia. Qed.
Lemma sum_near : forall (l : list str) k, (fold_right (fun t n => length t + 1 + n)%nat 1%nat l + k = fold_right (fun t n => length t + n)%nat (1 + k)%nat l + length l)%nat.
Proof. intros l k. induction l as [|s l IH]; cbn [fold_right length]; lia. Qed.
Definition in_span (o : str) (n : nat) (ss : list str) : option block :=
  do c1 <- print (alloc n, O) o; do c2 <- smt_loop true ss c1; do c3 <- app c2 [93]; do c4 <- nul c3; Some (fst c4).
Lemma in_span_ok : forall o n ss, clean o -> Forall clean ss -> (length o + length (join [44%Z] ss) + 2 <= n)%nat -> gives (in_span o n ss) (o ++ join [44] ss ++ [93]).
Proof.
  intros o n ss Ho HS L. unfold in_span, gives. rewrite <- listed_join in *.
  destruct (print_ok _ _ _ o (alloc_at n)) as (c1 & E1 & H1); [cbn [length]; lia|]. rewrite E1. cbn [obind]. cbn [List.app] in H1.
  destruct (smt_loop_ok ss true c1 _ n (ended_at _ _ _ H1)) as (c2 & E2 & H2); [lia|]. rewrite E2. cbn [obind].
  destruct (app_ok c2 _ n [93] H2) as (c3 & E3 & H3); [len; lia|]. rewrite E3. cbn [obind].
  destruct (nul_ok c3 _ n H3) as (c4 & E4 & H4); [len; lia|]. rewrite E4. cbn [obind]. exists (fst c4). split; [reflexivity|].
  rewrite (ended_cstr _ _ _ H4); [rewrite <- app_assoc; reflexivity|]. apply clean_app; [|bytes]. apply clean_app; [exact Ho|]. rewrite listed_join. apply join_clean; [bytes|exact HS].
Qed.
Lemma spanoq_ok : forall ss, Forall clean ss -> gives (spanoq_to_s ss) (s_span_or ++ join [44] ss ++ [93]).
Proof.
  intros ss H. apply in_span_ok; [bytes|exact H|]. pose proof (listed_len ss). pose proof (sum_more ss 49). change (1 + 49)%nat with 50%nat in *. cbn [length s_span_or]. lia.
Qed.
Lemma spannq_ok : forall ss, Forall clean ss -> (length ss <= 39)%nat -> gives (spannq_to_s ss) (s_span_near ++ join [44] ss ++ [93]).
Proof.
  intros ss H L. apply in_span_ok; [bytes|exact H|]. destruct ss as [|s ss]; [cbn; lia|]. pose proof (join_len (s :: ss) ltac:(discriminate)) as J.
  pose proof (sum_near (s :: ss) 49) as S. change (1 + 49)%nat with 50%nat in *. set (l := s :: ss) in *. cbn [length s_span_near]. lia.
Qed.
Lemma spanmtq_ok : forall df f ts, clean f -> Forall clean ts -> gives (spanmtq_to_s df f ts) (s_span_terms ++ named df f ++ [91] ++ join [44] ts ++ [93; 41]).
Proof.
  intros df f ts Hf HT. unfold spanmtq_to_s, gives. cbv zeta. match goal with |- context [alloc ?n] => set (N := n) end.
  assert (HN : N = fold_right (fun t n => length t + 2 + n)%nat 3%nat ts) by reflexivity. clearbody N.
  assert (L : (length (listed true ts) + 3 <= N)%nat).
  { rewrite listed_join. pose proof (listed_len ts). pose proof (sum_more ts 2). change (1 + 2)%nat with 3%nat in *. lia. }
  destruct (app_ok _ _ _ [91] (alloc_at N)) as (c1 & E1 & H1); [len; lia|]. rewrite E1. cbn [obind]. cbn [List.app] in H1.
  destruct (smt_loop_ok ts true c1 _ N H1) as (c2 & E2 & H2); [len; lia|]. rewrite E2. cbn [obind].
  destruct (app_ok c2 _ N [93] H2) as (c3 & E3 & H3); [len; lia|]. rewrite E3. cbn [obind].
  destruct (nul_ok c3 _ N H3) as (c4 & E4 & H4); [len; lia|]. rewrite E4. cbn [obind].
  assert (C : clean (([91] ++ listed true ts) ++ [93])).
  { apply clean_app; [|bytes]. apply clean_app; [bytes|]. rewrite listed_join. apply join_clean; [bytes|exact HT]. }
  rewrite (ended_cstr _ _ _ H4 C). cbn [obind]. unfold named. destruct (same df f).
  - match goal with |- context [strfmt ?l] => destruct (strfmt_ok l) as (m & E & E') end.
    { constructor; [bytes|]. constructor; [exact C|]. constructor; [bytes|constructor]. }
    exists m. split; [exact E|]. rewrite E'. f_equal. cbn [map concat piece_s]. rewrite listed_join, <- !app_assoc. reflexivity.
  - match goal with |- context [strfmt ?l] => destruct (strfmt_ok l) as (m & E & E') end.
    { constructor; [bytes|]. constructor; [exact Hf|]. constructor; [bytes|]. constructor; [exact C|]. constructor; [bytes|constructor]. }
    exists m. split; [exact E|]. rewrite E'. f_equal. cbn [map concat piece_s]. rewrite listed_join, <- !app_assoc. reflexivity.
Qed.
Lemma spantq_ok : forall df f t, clean f -> clean t -> gives (spantq_to_s df f t) (s_span_terms ++ named df f ++ t ++ [41]).
Proof.
  intros df f t Hf Ht. unfold spantq_to_s, gives, named. destruct (same df f);
  match goal with |- context [strfmt ?l] => destruct (strfmt_ok l) as (m & E & E') end.
  - constructor; [bytes|]. constructor; [exact Ht|]. constructor; [bytes|constructor].
  - exists m. split; [exact E|]. rewrite E'. reflexivity.
  - constructor; [bytes|]. constructor; [exact Hf|]. constructor; [bytes|]. constructor; [exact Ht|]. constructor; [bytes|constructor].
  - exists m. split; [exact E|]. rewrite E'. cbn [map concat piece_s]. rewrite <- !app_assoc. reflexivity.
Qed.
Lemma spanfq_ok : forall s e, clean s -> gives (spanfq_to_s s e) (s_span_first ++ s ++ [44; 32] ++ dec e ++ [41]).
Proof.
  intros s e Hs. unfold spanfq_to_s, gives. destruct (strfmt_ok [Lit s_span_first; Str s; Lit [44; 32]; Int e; Lit [41]]) as (m & E & E').
  - constructor; [bytes|]. constructor; [exact Hs|]. constructor; [bytes|]. constructor; [exact Logic.I|]. constructor; [bytes|constructor].
  - exists m. split; [exact E|]. rewrite E'. reflexivity.
Qed.
Lemma spanxq_ok : forall i x, clean i -> clean x -> gives (spanxq_to_s i x) (s_span_not ++ i ++ s_exc ++ x ++ [62; 41]).
Proof.
  intros i x Hi Hx. unfold spanxq_to_s, gives. match goal with |- context [strfmt ?l] => destruct (strfmt_ok l) as (m & E & E') end.
  - constructor; [bytes|]. constructor; [exact Hi|]. constructor; [bytes|]. constructor; [exact Hx|]. constructor; [bytes|constructor].
  - exists m. split; [exact E|]. rewrite E'. reflexivity.
Qed.
Lemma estrdup_ok : forall s, clean s -> gives (estrdup s) s.
Proof.
  intros s Hs. unfold estrdup, gives. destruct (print_ok _ _ _ s (alloc_at (length s + 1))) as (c & E & H); [cbn [length]; lia|]. rewrite E. cbn [obind].
  exists (fst c). split; [reflexivity|]. eapply ended_cstr; [exact H|exact Hs].
Qed.
Lemma boost_pieces : forall b, finite_b b -> Forall piece_fine (match b with None => [] | Some x => [Lit [94]; Num x] end) /\
  concat (map piece_s (match b with None => [] | Some x => [Lit [94]; Num x] end)) = tail b.
Proof.
  intros [x|] H; cbn [map concat piece_s tail]; [|split; [constructor|reflexivity]]. rewrite app_nil_r. split; [|reflexivity].
  constructor; [bytes|]. constructor; [exact H|constructor].
Qed.
Lemma fq_ok : forall q fl b, clean q -> clean fl -> finite_b b -> gives (fq_to_s q fl b) (s_filtered ++ q ++ s_filter ++ fl ++ [41] ++ tail b).
Proof.
  intros q fl b Hq Hfl Hb. unfold fq_to_s, gives. destruct (boost_pieces b Hb) as (B1 & B2). match goal with |- context [strfmt ?l] => destruct (strfmt_ok l) as (m & E & E') end.
  - apply Forall_app. split; [|exact B1]. constructor; [bytes|]. constructor; [exact Hq|]. constructor; [bytes|]. constructor; [exact Hfl|]. constructor; [bytes|constructor].
  - exists m. split; [exact E|]. rewrite E', map_app, concat_app, B2. f_equal. cbn [map concat piece_s]. rewrite <- !app_assoc. reflexivity.
Qed.
Lemma csq_ok : forall fl b, clean fl -> finite_b b -> gives (csq_to_s fl b) (s_const ++ fl ++ [41] ++ tail b).
Proof.
  intros fl b Hfl Hb. unfold csq_to_s, gives. destruct (boost_pieces b Hb) as (B1 & B2). match goal with |- context [strfmt ?l] => destruct (strfmt_ok l) as (m & E & E') end.
  - apply Forall_app. split; [|exact B1]. constructor; [bytes|]. constructor; [exact Hfl|]. constructor; [bytes|constructor].
  - exists m. split; [exact E|]. rewrite E', map_app, concat_app, B2. f_equal. cbn [map concat piece_s]. rewrite <- !app_assoc. reflexivity.
Qed.
Lemma maq_ok : forall b, finite_b b -> gives (maq_to_s b) ([42] ++ tail b).
Proof.
  intros [x|] Hb; unfold maq_to_s; [|apply estrdup_ok; bytes]. destruct (strfmt_ok [Lit [42; 94]; Num x]) as (m & E & E').
  - constructor; [bytes|]. constructor; [exact Hb|constructor].
  - exists m. split; [exact E|]. rewrite E'. cbn [map concat piece_s tail]. rewrite app_nil_r. reflexivity.
Qed.
Lemma gives_bind : forall r s (k : str -> option block) t, gives r s -> gives (k s) t -> gives (do m <- r; do s' <- cstr m; k s') t.
Proof. intros r s k t (m & -> & E) H. cbn [obind]. rewrite E. exact H. Qed.
Lemma three_ok : forall a s z, clean a -> clean s -> clean z -> gives (strfmt [Lit a; Str s; Lit z]) (a ++ s ++ z).
Proof.
  intros a s z Ha Hs Hz. destruct (strfmt_ok [Lit a; Str s; Lit z]) as (m & E & E').
  - constructor; [exact Ha|]. constructor; [exact Hs|]. constructor; [exact Hz|constructor].
  - exists m. split; [exact E|]. rewrite E'. cbn [map concat piece_s]. rewrite app_nil_r. reflexivity.
Qed.
Lemma filter_ok : forall fl, fine_filter fine fl -> (match fl with QueryF q => gives (q_block None q) (spell None q) /\ clean (spell None q) | _ => True end) ->
  gives (filter_to_s (fun q => q_block None q) fl) (filter_s (fun q => spell None q) fl) /\ clean (filter_s (fun q => spell None q) fl).
Proof.
  intros fl H HQ. destruct fl as [r|r|q|s]; cbn [filter_to_s filter_s fine_filter] in *.
  - pose proof (range_ok None r None H Logic.I) as R. cbn [tail] in R. rewrite app_nil_r in R. pose proof (range_clean None r H) as C. split.
    + eapply gives_bind; [exact R|]. cbv beta. apply three_ok; [bytes|exact C|bytes].
    + apply clean_app; [bytes|]. apply clean_app; [exact C|bytes].
  - pose proof (range_ok None r None H Logic.I) as R. cbn [tail] in R. rewrite app_nil_r in R. pose proof (range_clean None r H) as C. split.
    + eapply gives_bind; [exact R|]. cbv beta. rewrite (app_assoc s_typed). apply three_ok; [bytes|exact C|bytes].
    + apply clean_app; [bytes|]. apply clean_app; [bytes|]. apply clean_app; [exact C|bytes].
  - destruct HQ as (R & C). split; [eapply gives_bind; [exact R|]; cbv beta; apply three_ok; [bytes|exact C|bytes]|].
    apply clean_app; [bytes|]. apply clean_app; [exact C|bytes].
  - split; [apply estrdup_ok|]; exact H.
Qed.

Definition all_ss (df : option str) := fix all_ss (l : list query) : option (list str) :=
  match l with
  | [] => Some []
  | q' :: l' => do m <- q_block df q'; do s <- cstr m; do ss <- all_ss l'; Some (s :: ss)
  end.
Definition all_cs (df : option str) := fix all_cs (l : list (occur * query)) : option (list (occur * bool * str)) :=
  match l with
  | [] => Some []
  | (o, q') :: l' => do m <- q_block df q'; do s <- cstr m; do ss <- all_cs l'; Some ((o, is_bool q', s) :: ss)
  end.
Fixpoint fine_all (l : list query) : Prop := match l with [] => True | c :: l' => fine c /\ fine_all l' end.
Fixpoint fine_cs (l : list (occur * query)) : Prop := match l with [] => True | c :: l' => fine (snd c) /\ fine_cs l' end.
Lemma number_clean_b : forall x, finite x -> clean (number x).
Proof. exact finite_clean. Qed.
Fixpoint spelled_ok (q : query) : forall df, fine q -> gives (q_block df q) (spell df q) /\ clean (spell df q).
Proof.
  destruct q as [f t b|cs b|f ps slop b|f ts b|f p b|f p b|f t sim b|r b|q' fl b|fl b|b|f t|f ts|q' e|qs|qs|i x|f p b]; intros df H.
  - destruct H as (Hf & Ht & Hb). cbn [q_block spell]. split; [apply tq_ok; assumption|]. apply clean_app; [apply named_clean, Hf|]. apply clean_app; [exact Ht|apply tail_clean, Hb].
  - destruct H as (Hc & Hb). change (fine_cs cs) in Hc.
    assert (G : exists l, all_cs df cs = Some l /\ Forall (fun x => clean (snd x)) l /\
      map clause_s l = map (fun c => sign_of (fst c) ++ (if is_bool (snd c) then [40] ++ spell df (snd c) ++ [41] else spell df (snd c))) cs).
    { clear Hb. induction cs as [|(o, c) cs IH]; [exists []; repeat split; constructor|]. destruct Hc as (Hc & Hcs).
      destruct (spelled_ok c df Hc) as ((m & E1 & E2) & C). destruct (IH Hcs) as (l & E3 & C3 & M3). change (all_cs df ((o, c) :: cs)) with (do m <- q_block df c; do s <- cstr m; do ss <- all_cs df cs; Some ((o, is_bool c, s) :: ss)). rewrite E1. cbn [obind]. rewrite E2. cbn [obind]. rewrite E3. cbn [obind].
      eexists. split; [reflexivity|]. split; [constructor; [exact C|exact C3]|]. cbn [map]. rewrite M3. reflexivity. }
    destruct G as (l & E & C & M). pose proof (bq_ok l b C Hb) as B. rewrite M in B.
    assert (CC : clean (spell df (Bool cs b))).
    { cbn [spell]. set (body := join [32] _). assert (clean body).
      { unfold body. rewrite <- M. apply join_clean; [bytes|]. clear - C. induction C as [|[[o sub] t] l Ht C IH]; cbn [map]; constructor; [|exact IH]. unfold clause_s. cbn [fst snd] in *.
        apply clean_app; [destruct o; bytes|]. destruct sub; [|exact Ht]. apply clean_app; [bytes|]. apply clean_app; [exact Ht|bytes]. }
      destruct b as [x|]; [|exact H]. apply clean_app; [bytes|]. apply clean_app; [exact H|]. apply clean_app; [bytes|]. apply finite_clean, Hb. }
    split; [|exact CC]. change (gives (do ss <- all_cs df cs; bq_to_s ss b) (spell df (Bool cs b))). rewrite E. cbn [obind]. exact B.
  - destruct H as (Hf & HP & Hs & Hb). cbn [q_block spell]. split; [apply phq_ok; assumption|]. pose proof (named_clean df f Hf) as Cn.
    destruct ps as [|p0 ps]; [apply clean_app; [exact Cn|bytes]|]. apply clean_app; [exact Cn|]. apply clean_app; [bytes|]. apply clean_app.
    + unfold phrase. rewrite Forall_forall in HP. assert (HS : forall p, In p (sort (p0 :: ps)) -> fine_pos p) by (intros p Hp; apply HP; apply (proj1 (sort_In _ _)); exact Hp).
      destruct (sort (p0 :: ps)) as [|[p ts] rest]; [constructor|]. destruct (HS (p, ts) (or_introl eq_refl)) as (_ & _ & C). apply clean_app; [apply join_clean; [bytes|exact C]|].
      apply places_clean. intros y Hy. apply HS. right. exact Hy.
    + apply clean_app; [bytes|]. apply clean_app; [|apply tail_clean, Hb]. unfold slop_s. destruct (slop =? 0); [constructor|]. constructor; [discriminate|apply dec_clean].
  - destruct H as (Hf & HT & Hb). cbn [q_block spell]. split; [apply multi_tq_ok; assumption|]. apply clean_app; [apply named_clean, Hf|]. apply clean_app; [bytes|].
    apply clean_app; [apply join_clean; [bytes|apply terms_clean, HT]|]. apply clean_app; [bytes|apply tail_clean, Hb].
  - destruct H as (Hf & Ht & Hb). cbn [q_block spell]. split; [apply prq_ok; assumption|]. apply clean_app; [apply named_clean, Hf|]. apply clean_app; [exact Ht|]. apply clean_app; [bytes|apply tail_clean, Hb].
  - destruct H as (Hf & Ht & Hb). cbn [q_block spell]. split; [apply wcq_ok; assumption|]. apply clean_app; [apply named_clean, Hf|]. apply clean_app; [exact Ht|apply tail_clean, Hb].
  - destruct H as (Hf & Ht & Hs & Hb). cbn [q_block spell]. split; [apply fuzq_ok; assumption|]. apply clean_app; [apply named_clean, Hf|]. apply clean_app; [exact Ht|]. apply clean_app; [bytes|].
    apply clean_app; [destruct sim as [x|]; [apply finite_clean, Hs|constructor]|apply tail_clean, Hb].
  - destruct H as (Hr & Hb). cbn [q_block spell]. split; [apply range_ok; assumption|]. apply clean_app; [apply range_clean, Hr|apply tail_clean, Hb].
  - destruct H as (Hq & Hfl & Hb). cbn [q_block spell]. destruct (filter_ok fl Hfl) as (R & C).
    { destruct fl as [r|r|q''|s]; [exact Logic.I|exact Logic.I|exact (spelled_ok q'' None Hfl)|exact Logic.I]. }
    destruct (spelled_ok q' df Hq) as (R' & C'). split.
    + eapply gives_bind; [exact R|]. cbv beta. eapply gives_bind; [exact R'|]. cbv beta. apply fq_ok; assumption.
    + apply clean_app; [bytes|]. apply clean_app; [exact C'|]. apply clean_app; [bytes|]. apply clean_app; [exact C|]. apply clean_app; [bytes|apply tail_clean, Hb].
  - destruct H as (Hfl & Hb). cbn [q_block spell]. destruct (filter_ok fl Hfl) as (R & C).
    { destruct fl as [r|r|q''|s]; [exact Logic.I|exact Logic.I|exact (spelled_ok q'' None Hfl)|exact Logic.I]. }
    split; [eapply gives_bind; [exact R|]; cbv beta; apply csq_ok; assumption|].
    apply clean_app; [bytes|]. apply clean_app; [exact C|]. apply clean_app; [bytes|apply tail_clean, Hb].
  - cbn [q_block spell]. split; [apply maq_ok, H|]. apply clean_app; [bytes|apply tail_clean, H].
  - destruct H as (Hf & Ht). cbn [q_block spell]. split; [apply spantq_ok; assumption|]. apply clean_app; [bytes|]. apply clean_app; [apply named_clean, Hf|]. apply clean_app; [exact Ht|bytes].
  - destruct H as (Hf & Ht). cbn [q_block spell]. split; [apply spanmtq_ok; assumption|]. apply clean_app; [bytes|]. apply clean_app; [apply named_clean, Hf|]. apply clean_app; [bytes|].
    apply clean_app; [apply join_clean; [bytes|exact Ht]|bytes].
  - destruct H as (Hq & He). cbn [q_block spell]. destruct (spelled_ok q' df Hq) as (R & C). split; [eapply gives_bind; [exact R|]; cbv beta; apply spanfq_ok, C|].
    apply clean_app; [bytes|]. apply clean_app; [exact C|]. apply clean_app; [bytes|]. apply clean_app; [apply dec_clean|bytes].
  - change (fine_all qs) in H.
    assert (G : all_ss df qs = Some (map (spell df) qs) /\ Forall clean (map (spell df) qs)).
    { induction qs as [|c qs IH]; [split; [reflexivity|constructor]|]. destruct H as (Hc & Hcs).
      destruct (spelled_ok c df Hc) as ((m & E1 & E2) & C). destruct (IH Hcs) as (E3 & C3). change (all_ss df (c :: qs)) with (do m <- q_block df c; do s <- cstr m; do ss <- all_ss df qs; Some (s :: ss)). rewrite E1. cbn [obind]. rewrite E2. cbn [obind]. rewrite E3. cbn [map]. split; [reflexivity|constructor; assumption]. }
    destruct G as (E & C). split.
    + change (gives (do ss <- all_ss df qs; spanoq_to_s ss) (s_span_or ++ join [44] (map (spell df) qs) ++ [93])). rewrite E. cbn [obind]. apply spanoq_ok, C.
    + cbn [spell]. apply clean_app; [bytes|]. apply clean_app; [apply join_clean; [bytes|exact C]|bytes].
  - destruct H as (H & Hn). change (fine_all qs) in H.
    assert (G : all_ss df qs = Some (map (spell df) qs) /\ Forall clean (map (spell df) qs)).
    { clear Hn. induction qs as [|c qs IH]; [split; [reflexivity|constructor]|]. destruct H as (Hc & Hcs).
      destruct (spelled_ok c df Hc) as ((m & E1 & E2) & C). destruct (IH Hcs) as (E3 & C3). change (all_ss df (c :: qs)) with (do m <- q_block df c; do s <- cstr m; do ss <- all_ss df qs; Some (s :: ss)). rewrite E1. cbn [obind]. rewrite E2. cbn [obind]. rewrite E3. cbn [map]. split; [reflexivity|constructor; assumption]. }
    destruct G as (E & C). split.
    + change (gives (do ss <- all_ss df qs; spannq_to_s ss) (s_span_near ++ join [44] (map (spell df) qs) ++ [93])). rewrite E. cbn [obind]. apply spannq_ok; [exact C|]. rewrite map_length. exact Hn.
    + cbn [spell]. apply clean_app; [bytes|]. apply clean_app; [apply join_clean; [bytes|exact C]|bytes].
  - destruct H as (Hi & Hx). cbn [q_block spell]. destruct (spelled_ok i df Hi) as (R & C). destruct (spelled_ok x df Hx) as (R' & C').
    split; [eapply gives_bind; [exact R|]; cbv beta; eapply gives_bind; [exact R'|]; cbv beta; apply spanxq_ok; assumption|].
    apply clean_app; [bytes|]. apply clean_app; [exact C|]. apply clean_app; [bytes|]. apply clean_app; [exact C'|bytes].
  - destruct H as (Hf & Ht & Hb). cbn [q_block spell]. split; [apply prq_ok; assumption|]. apply clean_app; [apply named_clean, Hf|]. apply clean_app; [exact Ht|]. apply clean_app; [bytes|apply tail_clean, Hb].
Qed.
Lemma spelled : forall df q, fine q -> to_s df q = Some (spell df q).
Proof. intros df q H. destruct (spelled_ok q df H) as ((m & E & E2) & _). unfold to_s. rewrite E. exact E2. Qed.

(* where it fails *)
Lemma app_inv : forall c s n l c', at_ c s n -> app c l = Some c' -> at_ c' (s ++ l) n.
Proof.
  intros c s n l c' H E. assert (L : (length s + length l <= n)%nat).
  { destruct H as (r & Hm & Hi & Hl). unfold app, store in E. rewrite Hi, Hl in E. destruct (length s + length l <=? n)%nat eqn:G; [apply Nat.leb_le in G; exact G|discriminate]. }
  destruct (app_ok c s n l H L) as (c1 & E1 & H1). rewrite E in E1. apply some_inj in E1. subst c1. exact H1.
Qed.
Lemma at_len : forall c s n, at_ c s n -> (length s <= n)%nat.
Proof. intros c s n (r & Hm & Hi & Hl). rewrite Hm in Hl. len. lia. Qed.
Lemma nul_inv : forall c s n c', at_ c s n -> nul c = Some c' -> ended c' s n.
Proof.
  intros c s n c' H E. assert (L : (length s < n)%nat).
  { destruct H as (r & Hm & Hi & Hl). unfold nul, store in E. rewrite Hi, Hl in E. cbn [length] in E. destruct (length s + 1 <=? n)%nat eqn:G; [apply Nat.leb_le in G; lia|discriminate]. }
  destruct (nul_ok c s n H L) as (c1 & E1 & H1). rewrite E in E1. apply some_inj in E1. subst c1. exact H1.
Qed.
Lemma ended_len : forall c s n, ended c s n -> (length s < n)%nat.
Proof. intros c s n (r & Hm & Hi & Hl). rewrite Hm in Hl. len. lia. Qed.
Lemma print_inv : forall c s n l c', at_ c s n -> print c l = Some c' -> ended c' (s ++ l) n.
Proof. intros c s n l c' H E. unfold print in E. destruct (app c l) as [c1|] eqn:E1; [|discriminate]. eapply nul_inv; [eapply app_inv; eassumption|exact E]. Qed.
Lemma smt_inv : forall ts first c s n c', at_ c s n -> smt_loop first ts c = Some c' -> at_ c' (s ++ listed first ts) n.
Proof.
  intros ts. induction ts as [|t ts IH]; intros first c s n c' H E; cbn [smt_loop listed] in *; [apply some_inj in E; subst c'; rewrite app_nil_r; exact H|].
  match type of E with context [app c ?l] => destruct (app c l) as [c1|] eqn:E1; [|discriminate] end. cbn [obind] in E. destruct (print c1 t) as [c2|] eqn:E2; [|discriminate]. cbn [obind] in E.
  apply (app_inv _ _ _ _ _ H) in E1. apply (print_inv _ _ _ _ _ E1) in E2. apply (IH _ _ _ _ _ (ended_at _ _ _ E2)) in E. rewrite <- !app_assoc in E. exact E.
Qed.
Lemma near_short : forall ss, (40 <= length ss)%nat -> spannq_to_s ss = None.
Proof.
  intros ss L. destruct (spannq_to_s ss) as [m|] eqn:E; [|reflexivity]. exfalso. unfold spannq_to_s in E. match type of E with context [alloc ?n] => set (N := n) in E end.
  assert (HN : (N + length ss = 49 + fold_right (fun t n => length t + 1 + n) 1 ss)%nat) by (pose proof (sum_near ss 49) as S; unfold N; change (1 + 49)%nat with 50%nat in S; lia). clearbody N.
  destruct (print _ s_span_near) as [c1|] eqn:E1; [|discriminate]. cbn [obind] in E. apply (print_inv _ _ _ _ _ (alloc_at N)) in E1. cbn [List.app] in E1.
  destruct (smt_loop true ss c1) as [c2|] eqn:E2; [|discriminate]. cbn [obind] in E. apply (smt_inv _ _ _ _ _ _ (ended_at _ _ _ E1)) in E2.
  destruct (app c2 [93]) as [c3|] eqn:E3; [|discriminate]. cbn [obind] in E. apply (app_inv _ _ _ _ _ E2) in E3.
  destruct (nul c3) as [c4|] eqn:E4; [|discriminate]. apply (nul_inv _ _ _ _ E3) in E4. apply ended_len in E4.
  rewrite listed_join in E4. len. pose proof (join_len ss ltac:(intros ->; cbn [length] in L; lia)). cbn [length s_span_near] in E4. lia.
Qed.
Lemma near_unsafe : forall df qs, (40 <= length qs)%nat -> fine_all qs -> to_s df (SpanNear qs) = None.
Proof.
  intros df qs L H. unfold to_s. change (q_block df (SpanNear qs)) with (do ss <- all_ss df qs; spannq_to_s ss).
  assert (G : exists ss, all_ss df qs = Some ss /\ length ss = length qs).
  { clear L. induction qs as [|c qs IH]; [exists []; auto|]. destruct H as (Hc & Hcs). destruct (spelled_ok c df Hc) as ((m & E1 & E2) & C). destruct (IH Hcs) as (ss & E3 & L3).
    change (all_ss df (c :: qs)) with (do m <- q_block df c; do s <- cstr m; do ss <- all_ss df qs; Some (s :: ss)). rewrite E1. cbn [obind]. rewrite E2. cbn [obind]. rewrite E3. cbn [obind]. eexists. split; [reflexivity|]. cbn [length]. lia. }
  destruct G as (ss & E & Ls). rewrite E. cbn [obind]. rewrite near_short by lia. reflexivity.
Qed.
Lemma cstr_open : forall s m, clean s -> cstr (map Some s ++ None :: m) = None.
Proof.
  intros s m H. induction H as [|c s Hc H IH]; [reflexivity|]. cbn [map List.app cstr]. replace (c =? 0) with false by (symmetry; apply Z.eqb_neq; exact Hc). rewrite IH. reflexivity.
Qed.
Lemma term_unsafe : forall df f t b, clean f -> clean t -> b = Infinite \/ b = NotANumber -> to_s df (Term f t (Some b)) = None.
Proof.
  intros df f t b Hf Ht Hb. unfold to_s. cbn [q_block]. unfold tq_to_s. pose proof (named_len df f) as L.
  assert (G : exists c, (if same df f then Some (alloc (34 + length f + length t), O) else do c' <- app (alloc (34 + length f + length t), O) f; app c' [58]) = Some c /\ c = (map Some (named df f) ++ repeat None (34 + length f + length t - length (named df f)), length (named df f))).
  { assert (A : forall n l, (length l <= n)%nat -> app (alloc n, O) l = Some (map Some l ++ repeat None (n - length l), length l)).
    { intros n l Hl. unfold app. cbn [fst snd]. pose proof (store_over [] l (alloc n) O eq_refl) as S. cbn [map List.app] in S. rewrite S by (unfold alloc; rewrite repeat_length; exact Hl). cbn [obind Nat.add].
      do 3 f_equal. unfold alloc. clear. revert l. induction n as [|n IH]; intros [|x l]; cbn [repeat skipn length Nat.sub]; [reflexivity|reflexivity|reflexivity|apply IH]. }
    unfold named in *. destruct (same df f); [eexists; split; [reflexivity|cbn [map List.app length]; rewrite Nat.sub_0_r; reflexivity]|].
    rewrite A by lia. cbn [obind]. eexists. split; [|reflexivity]. unfold app. cbn [fst snd].
    rewrite store_over; [|reflexivity|rewrite repeat_length; cbn [length]; lia]. cbn [obind]. do 2 f_equal; [|len; lia]. f_equal. cbn [length skipn]. len.
    replace (34 + length f + length t - length f)%nat with (S (34 + length f + length t - (length f + 1))) by lia. reflexivity. }
  destruct G as (c & E & ->). rewrite E. cbn [obind].
  set (R := (34 + length f + length t - length (named df f))%nat). assert (HR : (length t + 33 <= R)%nat) by (unfold R; lia). clearbody R.
  unfold app at 1. cbn [fst snd]. rewrite store_over; [|reflexivity|rewrite repeat_length; lia]. cbn [obind].
  assert (SK : skipn (length t) (repeat (@None Z) R) = repeat None (R - length t)).
  { clear. generalize (length t). intros k. revert k. induction R as [|R IH]; intros [|k]; cbn [repeat skipn Nat.sub]; [reflexivity|reflexivity|reflexivity|apply IH]. }
  rewrite SK. destruct (R - length t)%nat as [|[|k]] eqn:EK; [lia|lia|]. cbn [repeat].
  unfold nul. cbn [fst snd]. rewrite store_over; [|len; lia|cbn [length]; lia]. cbn [obind skipn length].
  rewrite map_app, <- app_assoc. cbn [map List.app]. unfold boosted, app. cbn [fst snd]. rewrite store_over; [|len; lia|cbn [length]; lia]. cbn [obind skipn length].
  assert (D : forall m i, dbl_to_s m i b = Some m) by (intros m i; destruct Hb as [-> | ->]; reflexivity). cbn [fst snd]. rewrite D. cbn [obind]. apply cstr_open.
  apply clean_app; [|bytes]. apply clean_app; [apply named_clean, Hf|exact Ht].
Qed.
