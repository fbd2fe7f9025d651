(* Compaction of match ranges, and highlighting. *)
From Coq Require Import Sorting.Permutation Sorting.Sorted.
From Verif Require Import Util Ring Match_Model Match_Spec.
Open Scope Z_scope.
(* ---------- vectors *)
Lemma all_some_map {A} (l : list A) : all_some (map Some l) = Some l.
Proof. induction l as [|a l IH]; cbn [map all_some]; [reflexivity|]. rewrite IH. reflexivity. Qed.
Lemma v_list_ok l gap : v_list (mkMv (length l) (map Some l ++ gap)) = Some l.
Proof. unfold v_list. cbn [v_size v_mem]. rewrite (proj2 (Nat.leb_le _ _)) by (rewrite app_length, map_length; lia). rewrite firstn_app, map_length, Nat.sub_diag. cbn [firstn]. rewrite app_nil_r, firstn_all2 by (rewrite map_length; lia). apply all_some_map. Qed.
Definition holds (v : mvec) (l : list mr) : Prop := exists gap, v = mkMv (length l) (map Some l ++ gap).
Lemma add_ok v l s e : holds v l -> (1 <= length (v_mem v))%nat -> holds (matchv_add v s e) (l ++ [mkMr s e 1]) /\ (1 <= length (v_mem (matchv_add v s e)))%nat.
Proof.
  intros (gap & ->). cbn [v_mem]. intros Hc. unfold matchv_add, holds. cbn [v_size v_mem]. rewrite app_length, map_length in *. cbn [length]. set (b := (_ <=? _)%nat).
  assert (E : exists g x, (if b then (map Some l ++ gap) ++ repeat None (length l + length gap) else map Some l ++ gap) = map Some l ++ x :: g).
  { destruct b eqn:Eb; unfold b in Eb; [apply Nat.leb_le in Eb|apply Nat.leb_gt in Eb].
    - assert (gap = []) as -> by (destruct gap; [reflexivity|cbn [length] in Eb; lia]). rewrite app_nil_r. destruct (length l + length [])%nat as [|n] eqn:En; [cbn [length] in *; lia|]. cbn [repeat]. eauto.
    - destruct gap as [|x g]; [cbn [length] in Eb; lia|]. eauto. }
  destruct E as (g & x & E). rewrite E. assert (Eu : upd (map Some l ++ x :: g) (length l) (Some (mkMr s e 1)) = map Some l ++ Some (mkMr s e 1) :: g) by (pose proof (upd_mid (map Some l) x g (Some (mkMr s e 1))) as U; rewrite map_length in U; exact U). rewrite Eu, app_length. split.
  - exists g. f_equal; [cbn [length]; lia|]. rewrite map_app, <- app_assoc. reflexivity.
  - rewrite app_length. cbn [length]. lia.
Qed.
Lemma vec_ok ms : holds (vec_of ms) (map range ms).
Proof.
  unfold vec_of. assert (H : forall ms v l, holds v l -> (1 <= length (v_mem v))%nat -> holds (fold_left (fun v m => matchv_add v (fst m) (snd m)) ms v) (l ++ map range ms)).
  { clear. induction ms as [|m ms IH]; intros v l H Hc; cbn [fold_left map]; [rewrite app_nil_r; exact H|]. destruct (add_ok v l (fst m) (snd m) H Hc) as (H1 & H2). specialize (IH _ _ H1 H2). rewrite <- app_assoc in IH. exact IH. }
  apply (H ms matchv_new []); [exists (repeat None INIT_CAPA); reflexivity|cbn; lia].
Qed.
(* ---------- the loop *)
Section C.
  Variable br : bool.
  Let g : Z := if br then 0 else 1.
  Record Good (out done : list mr) : Prop := {
    G_apart : apart g out;
    G_proper : proper out;
    G_pd : proper done;
    G_cov : forall p, covers out p <-> covers done p;
    G_in : forall m, In m done -> exists o, In o out /\ m_start o <= m_start m /\ m_end m <= m_end o;
    G_join : br = true -> forall p, joins out p <-> joins done p;
    G_edge : forall o, In o out -> (exists m, In m done /\ m_start m = m_start o) /\ exists m, In m done /\ m_end m = m_end o;
    G_len : (length out <= length done)%nat;
    G_score : br = true -> forall o, In o out -> m_score o = total (filter (within o) done)
  }.
  Lemma total_app a b : total (a ++ b) = total a + total b.
  Proof. unfold total in *. induction a as [|x a IH]; cbn [app fold_right]; [lia|]. rewrite IH. lia. Qed.
  Lemma apart_app o l : apart g (o ++ [l]) <-> apart g o /\ forall a, In a o -> m_end a + g < m_start l.
  Proof.
    unfold apart. induction o as [|x o IH]; cbn [app].
    - split; [intros _; split; [constructor|intros ? []]|intros _; constructor; constructor].
    - split.
      + intros H. inversion H as [|? ? H1 H2]; subst. apply IH in H1. destruct H1 as (H1 & H3). rewrite Forall_app in H2. destruct H2 as (H2 & H4). split; [constructor; assumption|]. intros a [<-|Ha]; [apply Forall_inv in H4; exact H4|auto].
      + intros (H & H2). inversion H as [|? ? H3 H4]; subst. constructor; [apply IH; split; [exact H3|intros a Ha; apply H2; right; exact Ha]|]. apply Forall_app. split; [exact H4|]. constructor; [apply H2; left; reflexivity|constructor].
  Qed.
  Lemma cov_app a b p : covers (a ++ b) p <-> covers a p \/ covers b p.
  Proof. unfold covers. split; [intros (m & Hm & H); apply in_app_or in Hm; destruct Hm; [left|right]; eauto|intros [(m & Hm & H)|(m & Hm & H)]; exists m; split; auto; apply in_or_app; auto]. Qed.
  Lemma cov_one m p : covers [m] p <-> m_start m <= p <= m_end m.
  Proof. unfold covers. split; [intros (x & [<-|[]] & H); exact H|intros H; exists m; split; [left; reflexivity|exact H]]. Qed.
  Lemma join_app a b p : joins (a ++ b) p <-> joins a p \/ joins b p.
  Proof. unfold joins. split; [intros (m & Hm & H); apply in_app_or in Hm; destruct Hm; [left|right]; eauto|intros [(m & Hm & H)|(m & Hm & H)]; exists m; split; auto; apply in_or_app; auto]. Qed.
  Lemma join_one m p : joins [m] p <-> m_start m <= p /\ p + 1 <= m_end m.
  Proof. unfold joins. split; [intros (x & [<-|[]] & H); exact H|intros H; exists m; split; [left; reflexivity|exact H]]. Qed.
  Lemma g_pos : 0 <= g.
  Proof. unfold g. destruct br; lia. Qed.
  Lemma g_one : g <= 1.
  Proof. unfold g. destruct br; lia. Qed.
  (* everything done ends before the end of the last range *)
  Lemma last_end o l done m : Good (o ++ [l]) done -> In m done -> m_end m <= m_end l.
  Proof.
    intros [A P _ _ I _ _ _ _] Hm. destruct (I m Hm) as (x & Hx & _ & H). apply in_app_or in Hx. destruct Hx as [Hx|[<-|[]]]; [|exact H]. apply apart_app in A. destruct A as (_ & A). specialize (A x Hx). pose proof g_pos. assert (m_start l <= m_end l) by (apply P; apply in_or_app; right; left; reflexivity). lia.
  Qed.
  Lemma good_first m k : m_start m <= m_end m -> (br = true -> k = m_score m) -> Good [mkMr (m_start m) (m_end m) k] [m].
  Proof.
    intros Hm Hk. split.
    - constructor; constructor.
    - intros x [<-|[]]. exact Hm.
    - intros x [<-|[]]. exact Hm.
    - intros p. rewrite !cov_one. reflexivity.
    - intros x [<-|[]]. eexists. split; [left; reflexivity|]. cbn. lia.
    - intros _ p. rewrite !join_one. reflexivity.
    - intros o [<-|[]]. split; exists m; (split; [left|]; reflexivity).
    - cbn; lia.
    - intros B o [<-|[]]. cbn [filter]. unfold within. cbn [m_start m_end m_score]. rewrite !Z.leb_refl. cbn. rewrite (Hk B). lia.
  Qed.
  Lemma good_new o l done r : Good (o ++ [l]) done -> m_start r <= m_end r -> m_end l + g < m_start r -> Good ((o ++ [l]) ++ [r]) (done ++ [r]).
  Proof.
    intros HG Hr Hlt. pose proof (fun m => last_end o l done m HG) as HE. pose proof HG as [A P PD C I J ED LN S]. pose proof g_pos as Hg. split.
    - apply apart_app. split; [exact A|]. intros a Ha. apply in_app_or in Ha. destruct Ha as [Ha|[<-|[]]]; [|exact Hlt]. apply apart_app in A. destruct A as (_ & A). specialize (A a Ha). assert (m_start l <= m_end l) by (apply P; apply in_or_app; right; left; reflexivity). lia.
    - intros m Hm. apply in_app_or in Hm. destruct Hm as [Hm|[<-|[]]]; auto.
    - intros m Hm. apply in_app_or in Hm. destruct Hm as [Hm|[<-|[]]]; auto.
    - intros p. rewrite !(cov_app _ [r]), C. reflexivity.
    - intros m Hm. apply in_app_or in Hm. destruct Hm as [Hm|[<-|[]]]; [destruct (I m Hm) as (x & Hx & H); exists x; split; [apply in_or_app; left; exact Hx|exact H]|exists r; split; [apply in_or_app; right; left; reflexivity|lia]].
    - intros B p. rewrite !(join_app _ [r]), (J B). reflexivity.
    - intros x Hx. apply in_app_or in Hx. destruct Hx as [Hx|[<-|[]]]; [destruct (ED x Hx) as ((y & Y1 & Y2) & z & Z1 & Z2); split; [exists y|exists z]; (split; [apply in_or_app; left|]; assumption)|split; exists r; (split; [apply in_or_app; right; left|]; reflexivity)].
    - rewrite !app_length in *. cbn [length] in *. lia.
    - intros B x Hx. rewrite filter_app, total_app. apply in_app_or in Hx. destruct Hx as [Hx|[<-|[]]].
      + rewrite (S B x Hx). cbn [filter]. assert (m_end x <= m_end l). { apply in_app_or in Hx. destruct Hx as [Hx|[<-|[]]]; [|lia]. apply apart_app in A. destruct A as (_ & A). specialize (A x Hx). assert (m_start l <= m_end l) by (apply P; apply in_or_app; right; left; reflexivity). lia. }
        assert (within x r = false) as -> by (unfold within; apply andb_false_iff; right; apply Z.leb_gt; lia). cbn. lia.
      + assert (E : filter (within r) done = []).
        { assert (Hz : forall d, (forall m, In m d -> within r m = false) -> filter (within r) d = []) by (induction d as [|y d IH]; intros H; cbn [filter]; [reflexivity|]; rewrite (H y) by (left; reflexivity); apply IH; intros; apply H; right; assumption). apply Hz. intros m Hm. specialize (HE m Hm). specialize (PD m Hm). unfold within. apply andb_false_iff. left. apply Z.leb_gt. lia. }
        rewrite E. cbn [filter]. unfold within. rewrite !Z.leb_refl. cbn. lia.
  Qed.
  Lemma good_last o l done r e k : Good (o ++ [l]) done -> m_start r <= m_end r -> m_start l <= m_start r -> m_start r <= m_end l + g -> e = Z.max (m_end l) (m_end r) -> (br = true -> k = m_score l + m_score r) ->
    Good (o ++ [mkMr (m_start l) e k]) (done ++ [r]).
  Proof.
    intros HG Hr Hs Hle -> Hk. pose proof (fun m => last_end o l done m HG) as HE. pose proof HG as [A P PD C I J ED LN S]. pose proof g_pos as Hg. pose proof (proj1 (apart_app o l) A) as (A1 & A2). assert (Hl : m_start l <= m_end l) by (apply P; apply in_or_app; right; left; reflexivity). split.
    - apply apart_app. split; [exact A1|exact A2].
    - intros m Hm. apply in_app_or in Hm. destruct Hm as [Hm|[<-|[]]]; [apply P, in_or_app; auto|cbn; lia].
    - intros m Hm. apply in_app_or in Hm. destruct Hm as [Hm|[<-|[]]]; auto.
    - intros p. rewrite (cov_app done), <- C, !cov_app, !cov_one. cbn [m_start m_end]. pose proof g_one. intuition lia.
    - intros m Hm. apply in_app_or in Hm. destruct Hm as [Hm|[<-|[]]].
      + destruct (I m Hm) as (x & Hx & H). apply in_app_or in Hx. destruct Hx as [Hx|[<-|[]]]; [exists x; split; [apply in_or_app; auto|exact H]|]. eexists. split; [apply in_or_app; right; left; reflexivity|]. cbn. lia.
      + eexists. split; [apply in_or_app; right; left; reflexivity|]. cbn. lia.
    - intros B p. rewrite (join_app done), <- (J B), !join_app, !join_one. cbn [m_start m_end]. unfold g in Hle. rewrite B in Hle. intuition lia.
    - intros x Hx. apply in_app_or in Hx. destruct Hx as [Hx|[<-|[]]].
      + destruct (ED x) as ((y & Y1 & Y2) & z & Z1 & Z2); [apply in_or_app; left; exact Hx|]. split; [exists y|exists z]; (split; [apply in_or_app; left|]; assumption).
      + destruct (ED l) as ((y & Y1 & Y2) & z & Z1 & Z2); [apply in_or_app; right; left; reflexivity|]. cbn [m_start m_end]. split; [exists y; split; [apply in_or_app; left|]; assumption|]. destruct (Z.max_spec (m_end l) (m_end r)) as [(M1 & ->)|(M1 & ->)]; [exists r; split; [apply in_or_app; right; left; reflexivity|reflexivity]|exists z; split; [apply in_or_app; left; exact Z1|exact Z2]].
    - rewrite !app_length in *. cbn [length] in *. lia.
    - intros B x Hx. rewrite filter_app, total_app. apply in_app_or in Hx. destruct Hx as [Hx|[<-|[]]].
      + rewrite (S B x) by (apply in_or_app; auto). cbn [filter]. specialize (A2 x Hx). assert (within x r = false) as -> by (unfold within; apply andb_false_iff; right; apply Z.leb_gt; lia). cbn. lia.
      + cbn [m_score]. rewrite (Hk B), (S B l) by (apply in_or_app; right; left; reflexivity). f_equal.
        * f_equal. assert (Hf : forall d, (forall m, In m d -> m_end m <= m_end l) -> filter (within l) d = filter (within {| m_start := m_start l; m_end := Z.max (m_end l) (m_end r); m_score := k |}) d).
          { induction d as [|y d IH]; intros H; cbn [filter]; [reflexivity|]. rewrite IH by (intros; apply H; right; assumption). assert (within l y = within {| m_start := m_start l; m_end := Z.max (m_end l) (m_end r); m_score := k |} y) as ->; [|reflexivity]. unfold within. cbn [m_start m_end]. specialize (H y (or_introl eq_refl)). f_equal. rewrite (proj2 (Z.leb_le _ _)) by exact H. symmetry. apply Z.leb_le. lia. }
          apply Hf. exact HE.
        * cbn [filter]. unfold within. cbn [m_start m_end]. rewrite (proj2 (Z.leb_le _ _)) by exact Hs. rewrite (proj2 (Z.leb_le (m_end r) _)) by lia. cbn. lia.
  Qed.
  (* memory with the ranges made, free cells, and the ranges to come *)
  Lemma cell_at {A} (a : list (option A)) x b : cell (a ++ Some x :: b) (length a) = Some x.
  Proof. unfold cell. rewrite nth_mid. reflexivity. Qed.
  Lemma loop_ok : forall rest o l gap done extra, Good (o ++ [l]) done -> proper rest -> StronglySorted (fun a b => m_start a <= m_start b) rest -> (forall r, In r rest -> m_start l <= m_start r) ->
    exists out gap', out <> [] /\ fold_left (c_step br) (seq (length o + 1 + length gap) (length rest)) (Some (length o, map Some (o ++ [l]) ++ gap ++ map Some rest ++ extra)) = Some (length out - 1, map Some out ++ gap')%nat /\ Good out (done ++ rest).
  Proof.
    induction rest as [|r rest IH]; intros o l gap done extra HG Hp Hs Hl; cbn [length seq fold_left].
    - exists (o ++ [l]), (gap ++ extra). split; [destruct o; discriminate|]. rewrite app_nil_r. split; [|exact HG]. cbn [map app]. rewrite app_length. cbn [length]. f_equal. f_equal. lia.
    - inversion Hs as [|? ? Hs1 Hs2]; subst. rewrite Forall_forall in Hs2. assert (Hp' : proper rest) by (intros m Hm; apply Hp; right; exact Hm). assert (Hr : m_start r <= m_end r) by (apply Hp; left; reflexivity). specialize (Hl r (or_introl eq_refl)).
      assert (E1 : cell (map Some (o ++ [l]) ++ gap ++ map Some (r :: rest) ++ extra) (length o + 1 + length gap) = Some r) by (rewrite app_assoc; cbn [map app]; replace (length o + 1 + length gap)%nat with (length (map Some (o ++ [l]) ++ gap)) by (rewrite !app_length, map_length, app_length; cbn [length]; lia); apply cell_at).
      assert (E2 : cell (map Some (o ++ [l]) ++ gap ++ map Some (r :: rest) ++ extra) (length o) = Some l) by (rewrite map_app, <- app_assoc; cbn [map app]; rewrite <- (map_length Some o); apply cell_at).
      unfold c_step at 2. cbn [obind fst snd]. rewrite E1, E2. cbn [obind]. fold g. destruct (Z.ltb_spec (m_end l + g) (m_start r)) as [H1|H1].
      + pose proof (good_new o l done r HG Hr H1) as HG'.
        assert (EU : exists gap', length gap' = length gap /\ upd (map Some (o ++ [l]) ++ gap ++ map Some (r :: rest) ++ extra) (S (length o)) (Some r) = map Some ((o ++ [l]) ++ [r]) ++ gap' ++ map Some rest ++ extra).
        { replace (S (length o)) with (length (map Some (o ++ [l]))) by (rewrite map_length, app_length; cbn [length]; lia). rewrite (map_app Some (o ++ [l])). cbn [map]. destruct gap as [|x gap]; cbn [app].
          - exists []. split; [reflexivity|]. rewrite upd_mid, <- app_assoc. reflexivity.
          - exists (gap ++ [Some r]). split; [rewrite app_length; cbn [length]; lia|]. rewrite upd_mid. rewrite <- !app_assoc. reflexivity. }
        destruct EU as (gap' & EL & EU). rewrite EU. destruct (IH (o ++ [l]) r gap' (done ++ [r]) extra HG' Hp' Hs1 Hs2) as (out & g2 & H2 & H3 & H4). exists out, g2. split; [exact H2|]. rewrite <- app_assoc in H4. split; [|exact H4]. rewrite app_length in H3. cbn [length] in H3. rewrite EL in H3. replace (S (length o)) with (length o + 1)%nat by lia. replace (S (length o + 1 + length gap)) with (length o + 1 + 1 + length gap)%nat by lia. exact H3.
      + set (k := fun e kk => {| m_start := m_start l; m_end := e; m_score := kk |}).
        assert (ST : forall e kk, e = Z.max (m_end l) (m_end r) -> (br = true -> kk = m_score l + m_score r) -> exists out gap', out <> [] /\ fold_left (c_step br) (seq (S (length o + 1 + length gap)) (length rest)) (Some (length o, upd (map Some (o ++ [l]) ++ gap ++ map Some (r :: rest) ++ extra) (length o) (Some (k e kk)))) = Some (length out - 1, map Some out ++ gap')%nat /\ Good out (done ++ r :: rest)).
        { intros e kk He Hkk. pose proof (good_last o l done r e kk HG Hr Hl H1 He Hkk) as HG'. rewrite map_app, <- app_assoc. cbn [map app]. pose proof (upd_mid (map Some o) (Some l) (gap ++ Some r :: map Some rest ++ extra) (Some (k e kk))) as U. rewrite map_length in U. rewrite U.
          destruct (IH o (k e kk) (gap ++ [Some r]) (done ++ [r]) extra HG' Hp' Hs1) as (out & g2 & H2 & H3 & H4); [intros x Hx; cbn [k m_start]; specialize (Hs2 x Hx); lia|]. exists out, g2. split; [exact H2|]. rewrite <- app_assoc in H4. split; [|exact H4].
          rewrite app_length in H3. cbn [length] in H3. replace (S (length o + 1 + length gap)) with (length o + 1 + (length gap + 1))%nat by lia. rewrite map_app in H3. cbn [map] in H3. rewrite <- !app_assoc in H3. cbn [app] in H3. exact H3. }
        destruct (Z.ltb_spec (m_end l) (m_end r)) as [H2|H2]; [apply (ST (m_end r)); [lia|intros B; rewrite B; reflexivity]|].
        assert (negb br || (length o <? length o + 1 + length gap)%nat = true) as -> by (rewrite (proj2 (Nat.ltb_lt _ _)) by lia; apply orb_true_r). apply (ST (m_end l)); [lia|reflexivity].
  Qed.
  Variable qsort : (mr -> mr -> Z) -> list mr -> list mr.
  Hypothesis Hq : qsorts qsort.
  Lemma qsort_ok l : Permutation l (qsort mr_cmp l) /\ StronglySorted (fun a b => m_start a <= m_start b) (qsort mr_cmp l).
  Proof.
    destruct (Hq mr_cmp) with (l := l) as (H1 & H2).
    - intros a b. unfold mr_cmp. destruct (Z.eqb_spec (m_start a - m_start b) 0), (Z.eqb_spec (m_start b - m_start a) 0); lia.
    - intros a b c. unfold mr_cmp. destruct (Z.eqb_spec (m_start a - m_start b) 0), (Z.eqb_spec (m_start b - m_start c) 0), (Z.eqb_spec (m_start a - m_start c) 0); lia.
    - split; [exact H1|]. revert H2. generalize (qsort mr_cmp l). induction 1 as [|a t Ht IH HF]; constructor; [exact IH|]. rewrite Forall_forall in *. intros b Hb. specialize (HF b Hb). unfold mr_cmp in HF. destruct (Z.eqb_spec (m_start a - m_start b) 0); lia.
  Qed.
  Lemma total_perm a b : Permutation a b -> total a = total b.
  Proof. induction 1; unfold total in *; cbn [fold_right]; lia. Qed.
  Lemma filter_perm {A} (f : A -> bool) a b : Permutation a b -> Permutation (filter f a) (filter f b).
  Proof. induction 1; cbn [filter]; [constructor|destruct (f x); [constructor|]; assumption|destruct (f x), (f y); try apply Permutation_refl; apply perm_swap|eapply Permutation_trans; eassumption]. Qed.
  Lemma good_perm out a b : Permutation a b -> Good out a -> Good out b.
  Proof.
    intros HP [A P PD C I J ED LN S]. assert (HI : forall m, In m a <-> In m b) by (intros m; split; apply Permutation_in; [exact HP|apply Permutation_sym; exact HP]). split; auto.
    - intros m Hm. apply PD, HI, Hm.
    - intros p. rewrite C. unfold covers. split; intros (m & Hm & H); exists m; split; auto; apply HI; exact Hm.
    - intros m Hm. apply I, HI, Hm.
    - intros B p. rewrite (J B). unfold joins. split; intros (m & Hm & H); exists m; split; auto; apply HI; exact Hm.
    - intros o Ho. destruct (ED o Ho) as ((y & Y1 & Y2) & z & Z1 & Z2). split; [exists y|exists z]; (split; [apply HI|]; assumption).
    - rewrite <- (Permutation_length HP). exact LN.
    - intros B o Ho. rewrite (S B o Ho). apply total_perm, filter_perm, HP.
  Qed.
  Lemma compact_ok v l : holds v l -> l <> [] -> proper l -> exists w out, compact qsort br v = Some w /\ v_list w = Some out /\ Good out l.
  Proof.
    intros (gap & ->) Hne Hp. unfold compact, matchv_sort. rewrite v_list_ok. cbn [obind v_size v_mem]. rewrite skipn_app, map_length, Nat.sub_diag, skipn_all2 by (rewrite map_length; lia). cbn [skipn app].
    destruct (qsort_ok l) as (HP & HS). rewrite (Permutation_length HP) in *. set (q := qsort mr_cmp l) in *. destruct q as [|m rest] eqn:Eq; [apply Permutation_sym, Permutation_nil in HP; congruence|]. cbn [length seq fold_left].
    assert (Hpq : proper (m :: rest)) by (intros x Hx; apply Hp; apply (Permutation_in _ (Permutation_sym HP)); exact Hx). assert (Hm : m_start m <= m_end m) by (apply Hpq; left; reflexivity). inversion HS as [|? ? HS1 HS2]; subst. rewrite Forall_forall in HS2.
    assert (E : c_step br (Some (0%nat, map Some (m :: rest) ++ gap)) 0 = Some (0%nat, map Some ([] ++ [mkMr (m_start m) (m_end m) (if br then m_score m else m_score m + m_score m)]) ++ [] ++ map Some rest ++ gap)).
    { unfold c_step. cbn [obind fst snd map app cell nth_error upd]. fold g. pose proof g_pos. rewrite (proj2 (Z.ltb_ge _ _)) by lia. rewrite Z.ltb_irrefl. destruct br; cbn [negb orb Nat.ltb Nat.leb]; [destruct m|]; reflexivity. }
    rewrite E. destruct (loop_ok rest [] (mkMr (m_start m) (m_end m) (if br then m_score m else m_score m + m_score m)) [] [m] gap) as (out & g2 & H2 & H3 & H4); auto.
    - cbn [app]. apply good_first; [exact Hm|]. intros B. rewrite B. reflexivity.
    - intros x Hx. apply Hpq. right. exact Hx.
    - cbn [length] in H3. change (0 + 1 + 0)%nat with 1%nat in H3. rewrite H3. cbn [obind fst snd]. eexists _, out. split; [reflexivity|]. split; [|apply (good_perm out ([m] ++ rest)); [apply Permutation_sym; exact HP|exact H4]]. replace (S (length out - 1)) with (length out) by (destruct out; [congruence|cbn [length]; lia]). apply v_list_ok.
  Qed.
End C.

(* ---------- the text *)
Lemma slice_len text a b : 0 <= a <= b -> b <= Z.of_nat (length text) -> length (slice text a b) = Z.to_nat (b - a).
Proof. intros H1 H2. unfold slice. rewrite firstn_length, skipn_length. lia. Qed.
Lemma slice_app text a b c : 0 <= a <= b -> b <= c -> slice text a b ++ slice text b c = slice text a c.
Proof. intros H1 H2. unfold slice. replace (Z.to_nat (c - a)) with (Z.to_nat (b - a) + Z.to_nat (c - b))%nat by lia. rewrite firstn_add. f_equal. f_equal. rewrite skipn_skipn'. f_equal. lia. Qed.
Fixpoint chain (n from : Z) (ms : list (Z * Z)) : Prop := match ms with [] => from <= n | (s, e) :: t => from <= s /\ s <= e /\ chain n e t end.
Lemma chain_le n : forall ms from, chain n from ms -> from <= n.
Proof. induction ms as [|(s, e) ms IH]; intros from H; cbn [chain] in H; [exact H|]. destruct H as (H1 & H2 & H3). apply IH in H3. lia. Qed.
Lemma untag text : forall ms from, 0 <= from -> chain (Z.of_nat (length text)) from ms -> tagged text [] [] from ms = slice text from (Z.of_nat (length text)).
Proof.
  induction ms as [|(s, e) ms IH]; intros from H0 H; cbn [tagged chain] in *; [reflexivity|]. destruct H as (H1 & H2 & H3). pose proof (chain_le _ _ _ H3). rewrite (IH e) by (auto; lia). cbn [app]. rewrite slice_app by lia. apply slice_app; lia.
Qed.
Section H.
  Variables (text pre post : list Z) (capa : Z).
  Let n := Z.of_nat (length text).
  Let d := mkLdf text n false.
  Lemma copy_ok out from len : 0 <= from -> 0 <= len -> from + len <= n -> Z.of_nat (length out) + len <= capa -> copy capa d out from len = Some (out ++ slice text from (from + len), d).
  Proof.
    intros H1 H2 H3 H4. unfold copy. destruct (Z.eqb_spec len 0) as [->|Hl].
    - unfold slice. rewrite Z.add_0_r, Z.sub_diag. cbn [Z.to_nat firstn]. rewrite app_nil_r. reflexivity.
    - unfold get_bytes. cbn [f_comp d f_len f_text]. fold d. rewrite (proj2 (Z.ltb_ge _ _)) by lia. rewrite (proj2 (Z.leb_gt n from)) by lia. cbn [orb]. rewrite (proj2 (Z.leb_gt len 0)) by lia. rewrite (proj2 (Z.ltb_ge n _)) by lia. cbn [obind fst snd]. unfold put.
      assert (E : firstn (Z.to_nat len) (skipn (Z.to_nat from) text) = slice text from (from + len)) by (unfold slice; f_equal; f_equal; lia). rewrite E. rewrite (proj2 (Z.leb_le _ _)) by (rewrite slice_len; unfold n in *; lia). reflexivity.
  Qed.
  Lemma loop_text : forall ms out from, 0 <= from -> chain n from ms -> Z.of_nat (length out) + (n - from) + Z.of_nat (length ms) * (Z.of_nat (length pre) + Z.of_nat (length post)) + 1 <= capa ->
    exists o last, h_loop capa d pre post ms out from = Some (o, last, d) /\ o ++ slice text last n = out ++ tagged text pre post from ms /\ 0 <= last <= n /\ Z.of_nat (length o) + (n - last) + 1 <= capa.
  Proof.
    induction ms as [|(s, e) ms IH]; intros out from H0 HC HL; cbn [h_loop tagged chain length] in *.
    - exists out, from. splits; auto; lia.
    - destruct HC as (H1 & H2 & H3). pose proof (chain_le _ _ _ H3) as Hen. rewrite copy_ok by nia. cbn [obind fst snd]. replace (from + (s - from)) with s by lia. unfold put at 1. pose proof (slice_len text from s ltac:(lia) ltac:(unfold n in *; lia)) as L1. rewrite (proj2 (Z.leb_le _ _)) by (rewrite app_length, L1; nia). cbn [obind].
      rewrite copy_ok by (try rewrite !app_length, L1; nia). cbn [obind fst snd]. replace (s + (e - s)) with e by lia. unfold put at 1. pose proof (slice_len text s e ltac:(lia) ltac:(unfold n in *; lia)) as L2. rewrite (proj2 (Z.leb_le _ _)) by (rewrite !app_length, L1, L2; nia). cbn [obind].
      destruct (IH ((((out ++ slice text from s) ++ pre) ++ slice text s e) ++ post) e ltac:(lia) H3) as (o & last & E & E2 & E3 & E4); [rewrite !app_length, L1, L2; nia|]. exists o, last. split; [exact E|]. split; [|split; assumption]. rewrite E2. rewrite <- !app_assoc. reflexivity.
  Qed.
End H.
Section T.
  Variable qsort : (mr -> mr -> Z) -> list mr -> list mr.
  Hypothesis Hq : qsorts qsort.
  Variables (text : list Z) (offs : list (Z * Z)) (ms : list (Z * Z)).
  Hypothesis HO : offsets_ok text offs ms.
  Lemma proper_range : proper (map range ms).
  Proof. intros m Hm. apply in_map_iff in Hm. destruct Hm as (x & <- & Hx). destruct (proj1 HO x Hx) as ((_ & H) & _). exact H. Qed.
  Lemma out_edges out : Good true out (map range ms) -> forall o, In o out -> 0 <= m_start o /\ m_end o < Z.of_nat (length offs) /\ edge ms (Z.to_nat (m_start o)) /\ edge ms (Z.to_nat (m_end o)).
  Proof.
    intros HG o Ho. destruct (G_edge _ _ _ HG o Ho) as ((a & Ha & Ea) & b & Hb & Eb). apply in_map_iff in Ha, Hb. destruct Ha as (x & <- & Hx), Hb as (y & <- & Hy). cbn [range m_start m_end] in *. destruct (proj1 HO x Hx) as ((X1 & X2) & X3), (proj1 HO y Hy) as ((Y1 & Y2) & Y3). splits; try lia; [exists x|exists y]; (split; [assumption|lia]).
  Qed.
  Lemma set_all_ok : forall out, (forall o, In o out -> 0 <= m_start o <= m_end o /\ m_end o < Z.of_nat (length offs)) -> set_all offs out = Some (map (offset_pair offs) out).
  Proof.
    induction out as [|o out IH]; intros H; cbn [set_all map]; [reflexivity|]. destruct (H o (or_introl eq_refl)) as ((H1 & H2) & H3). unfold set_offsets. rewrite !(proj2 (Z.ltb_ge _ _)) by lia. cbn [orb]. rewrite !(nth_error_nth' offs (0, 0)) by lia. cbn [obind]. rewrite IH by (intros; apply H; right; assumption). reflexivity.
  Qed.
  Lemma pair_ok m : 0 <= m_start m <= m_end m -> m_end m < Z.of_nat (length offs) -> edge ms (Z.to_nat (m_start m)) -> edge ms (Z.to_nat (m_end m)) -> let p := offset_pair offs m in 0 <= fst p <= snd p /\ snd p <= Z.of_nat (length text).
  Proof.
    intros H1 H2 E1 E2 p. destruct HO as (_ & O2 & O3). unfold p, offset_pair. cbn [fst snd].
    assert (N : forall x, 0 <= x <= m_end m -> nth_error offs (Z.to_nat x) = Some (nth (Z.to_nat x) offs (0, 0))) by (intros x Hx; apply nth_error_nth'; lia).
    destruct (O2 _ _ E1 (N _ H1)) as (A1 & A2), (O2 _ _ E2 (N (m_end m) ltac:(lia))) as (B1 & B2).
    destruct (Z.eq_dec (m_start m) (m_end m)) as [E|E]; [rewrite <- E in *; lia|]. pose proof (O3 _ _ _ _ E1 E2 ltac:(lia) (N _ H1) (N (m_end m) ltac:(lia))). lia.
  Qed.
  Lemma chain_ok : forall out from, apart 0 out -> (forall o, In o out -> 0 <= m_start o <= m_end o /\ m_end o < Z.of_nat (length offs) /\ edge ms (Z.to_nat (m_start o)) /\ edge ms (Z.to_nat (m_end o))) -> from <= Z.of_nat (length text) -> (forall o, In o out -> from <= fst (offset_pair offs o)) -> chain (Z.of_nat (length text)) from (map (offset_pair offs) out).
  Proof.
    induction out as [|o out IH]; intros from HA HE Hn Hf; cbn [map chain]; [exact Hn|]. destruct (HE o (or_introl eq_refl)) as (H1 & H2 & E1 & E2). pose proof (pair_ok o H1 H2 E1 E2) as (P1 & P2). pose proof (Hf o (or_introl eq_refl)) as Hf1. inversion HA as [|? ? HA1 HA2]; subst. rewrite Forall_forall in HA2. destruct (offset_pair offs o) as (s, e) eqn:Ep. cbn [fst snd] in *. split; [exact Hf1|]. split; [lia|].
    apply IH; [exact HA1|intros; apply HE; right; assumption|exact P2|]. intros o2 Ho2. specialize (HA2 o2 Ho2). destruct (HE o2 (or_intror Ho2)) as (G1 & G2 & G3 & G4). unfold offset_pair in Ep. injection Ep as _ <-. cbn [offset_pair fst]. apply (proj2 (proj2 HO) (Z.to_nat (m_end o)) (Z.to_nat (m_start o2))); auto; [lia| |]; apply nth_error_nth'; lia.
  Qed.
  Lemma highlight_ok pre post : ms <> [] -> exists out, Good true out (map range ms) /\ highlight_field qsort (vec_of ms) (mkLdf text (Z.of_nat (length text)) false) offs pre post = Some (tagged text pre post 0 (map (offset_pair offs) out)) /\ tagged text [] [] 0 (map (offset_pair offs) out) = text.
  Proof.
    intros Hne. pose proof (vec_ok ms) as HV. assert (Hne2 : map range ms <> []) by (destruct ms; [congruence|discriminate]). destruct (compact_ok true qsort Hq _ _ HV Hne2 proper_range) as (w & out & E1 & E2 & HG). exists out. split; [exact HG|].
    assert (HE : forall o, In o out -> 0 <= m_start o <= m_end o /\ m_end o < Z.of_nat (length offs) /\ edge ms (Z.to_nat (m_start o)) /\ edge ms (Z.to_nat (m_end o))) by (intros o Ho; destruct (out_edges out HG o Ho) as (A & B & C & D); pose proof (G_proper _ _ _ HG o Ho); splits; auto; lia).
    pose proof (chain_ok out 0 (G_apart _ _ _ HG) HE ltac:(lia) ltac:(intros o Ho; destruct (HE o Ho) as (A & B & C & D); apply (pair_ok o A B C D))) as HC. split.
    - unfold highlight_field. assert (Hsz : v_size (vec_of ms) = length ms) by (destruct HV as (gap & ->); cbn [v_size]; apply map_length). rewrite Hsz, (proj2 (Nat.ltb_lt 0 _)) by (destruct ms; [congruence|cbn; lia]). rewrite E1. cbn [obind]. rewrite E2. cbn [obind]. rewrite set_all_ok by (intros o Ho; destruct (HE o Ho) as (A & B & _); auto). cbn [obind f_len].
      set (capa := 10 + _ + _). destruct (loop_text text pre post capa (map (offset_pair offs) out) [] 0 ltac:(lia) HC) as (o & last & L1 & L2 & L3 & L4).
      { unfold capa. pose proof (G_len _ _ _ HG) as HL. rewrite map_length in *. cbn [length]. nia. }
      rewrite L1. cbn [obind]. pose proof (copy_ok text capa o last (Z.of_nat (length text) - last) ltac:(lia) ltac:(lia) ltac:(lia) ltac:(lia)) as CO. cbn [f_len]. rewrite CO. cbn [obind fst]. replace (last + (Z.of_nat (length text) - last)) with (Z.of_nat (length text)) by lia. rewrite L2. cbn [app]. unfold put.
      assert (HL : length (tagged text pre post 0 (map (offset_pair offs) out)) = (length o + length (slice text last (Z.of_nat (length text))))%nat) by (rewrite <- app_length, L2; reflexivity). rewrite slice_len in HL by lia. rewrite (proj2 (Z.leb_le _ _)) by (rewrite HL; cbn [length]; lia). reflexivity.
    - rewrite (untag text _ 0 ltac:(lia) HC). unfold slice. rewrite Z.sub_0_r, Nat2Z.id. cbn [Z.to_nat skipn]. apply firstn_all.
  Qed.
End T.
(* ---------- excerpts *)
Section X.
  Variables (L : Z) (ms : list (Z * Z)).
  Notation en k := (snd (nth k ms (0, 0))). Notation st k := (fst (nth k ms (0, 0))).
  Lemma grow_ok s : forall fuel e, (length ms - e <= fuel)%nat -> (e <= length ms)%nat -> exists j, grow L fuel ms s e = j /\ (e <= j <= length ms)%nat /\ (forall k, (e <= k < j)%nat -> en k <= s + L) /\ ((j < length ms)%nat -> s + L < en j).
  Proof.
    induction fuel as [|fuel IH]; intros e Hf He; cbn [grow]; [exists e; splits; auto; intros; lia|]. destruct (nth_error ms e) as [m|] eqn:E; [|apply nth_error_None in E; exists e; splits; auto; intros; lia].
    assert (Hlt : (e < length ms)%nat) by (apply nth_error_Some; congruence). assert (Hm : nth e ms (0, 0) = m) by (apply nth_error_nth; exact E). destruct (Z.leb_spec (snd m) (s + L)) as [H|H].
    - destruct (IH (S e) ltac:(lia) ltac:(lia)) as (j & E1 & H1 & H2 & H3). exists j. split; [exact E1|]. split; [lia|]. split; [|exact H3]. intros k Hk. destruct (Nat.eq_dec k e) as [->|]; [rewrite Hm; exact H|apply H2; lia].
    - exists e. splits; auto; [intros; lia|]. intros _. rewrite Hm. exact H.
  Qed.
  Hypothesis Hst : forall i j, (i <= j < length ms)%nat -> st i <= st j.
  Hypothesis Hfit : forall i, (i < length ms)%nat -> en i <= st i + L.
  Lemma cand_ok : forall n i e, (i + n = length ms)%nat -> (i <= e <= length ms)%nat -> (forall k, (i <= k < e)%nat -> (i < length ms)%nat -> en k <= st i + L) ->
    forall j, (j < n)%nat -> exists y, nth_error (candidates L ms (combine (seq i n) (skipn i (map fst ms))) e) j = Some (Z.of_nat (i + j), Z.of_nat y) /\ fits L ms (i + j) y.
  Proof.
    induction n as [|n IH]; intros i e Hn He Hk j Hj; [lia|]. assert (Hi : (i < length ms)%nat) by lia. cbn [seq]. assert (E : skipn i (map fst ms) = st i :: skipn (S i) (map fst ms)).
    { clear -Hi. revert i Hi. induction ms as [|m t IH]; intros i Hi; [cbn in Hi; lia|]. destruct i as [|i]; [reflexivity|]. cbn [length] in Hi. specialize (IH i ltac:(lia)). cbn [map skipn nth] in *. exact IH. }
    rewrite E. cbn [combine candidates]. rewrite (proj2 (Nat.ltb_ge e i)) by lia. destruct (grow_ok (st i) (length ms) e ltac:(lia) ltac:(lia)) as (e1 & -> & G1 & G2 & G3).
    assert (G : forall k, (i <= k < e1)%nat -> en k <= st i + L) by (intros k Hk2; destruct (Nat.ltb_spec k e) as [D|D]; [apply Hk; lia|apply G2; lia]).
    assert (Hlt : (i < e1)%nat). { destruct (Nat.eq_dec e1 i) as [D|]; [|lia]. specialize (G3 ltac:(lia)). rewrite D in G3. specialize (Hfit i Hi). lia. }
    destruct j as [|j]; cbn [nth_error].
    - exists (e1 - 1)%nat. rewrite Nat.add_0_r. split; [f_equal; f_equal; lia|]. unfold fits. splits; [lia|lia|intros k Hk2; apply G; lia|]. intros Hs. replace (S (e1 - 1)) with e1 in * by lia. apply G3. exact Hs.
    - replace (i + S j)%nat with (S i + j)%nat by lia. apply IH; [lia|lia| |lia]. intros k Hk2 Hi2. specialize (G k ltac:(lia)). specialize (Hst i (S i) ltac:(lia)). lia.
  Qed.
  Lemma excerpts_ok i : (i < length ms)%nat -> exists j, nth_error (excerpts_of L ms) i = Some (Z.of_nat i, Z.of_nat j) /\ fits L ms i j /\ excerpt_offsets ms (Z.of_nat i, Z.of_nat j) = Some (st i, en j).
  Proof.
    intros Hi. destruct (cand_ok (length ms) 0 0 ltac:(lia) ltac:(lia) ltac:(intros; lia) i Hi) as (j & E & HF). exists j. cbn [Nat.add] in *. split; [exact E|]. split; [exact HF|]. destruct HF as (H1 & H2 & _). unfold excerpt_offsets. cbn [fst snd]. rewrite !(proj2 (Z.ltb_ge _ _)) by lia. cbn [orb]. rewrite !Nat2Z.id, !(nth_error_nth' ms (0, 0)) by lia. reflexivity.
  Qed.
End X.
