(* MultiReader: document numbers, deletions, norms. *)
From Verif Require Import Util Multi_Model Multi_Spec.
Open Scope Z_scope.

(* ---------- blocks *)
Definition pre {A} (bs : list (list A)) (i : nat) : nat := length (concat (firstn i bs)).
Lemma pre_S {A} (bs : list (list A)) i b : nth_error bs i = Some b -> pre bs (S i) = (pre bs i + length b)%nat.
Proof.
  unfold pre. revert i; induction bs as [|c bs IH]; intros [|i] H; cbn [nth_error firstn concat] in *; try discriminate.
  - apply some_inj in H. subst c. cbn [concat]. rewrite app_nil_r. reflexivity.
  - rewrite !app_length. specialize (IH i H). cbn [firstn] in IH. destruct bs as [|d bs]; [destruct i; discriminate|]. cbn [firstn concat] in *. rewrite IH. lia.
Qed.
Lemma pre_all {A} (bs : list (list A)) i : (length bs <= i)%nat -> pre bs i = length (concat bs).
Proof. intros. unfold pre. rewrite firstn_all2; auto. Qed.
Lemma pre_mono {A} (bs : list (list A)) i j : (i <= j)%nat -> (pre bs i <= pre bs j)%nat.
Proof.
  intros H. induction H; [lia|]. destruct (nth_error bs m) as [b|] eqn:E.
  - rewrite (pre_S _ _ _ E). lia.
  - apply nth_error_None in E. rewrite (pre_all bs m) in IHle by auto. rewrite (pre_all bs (S m)) by lia. lia.
Qed.
Lemma pre_le {A} (bs : list (list A)) i b : nth_error bs i = Some b -> (pre bs i + length b <= length (concat bs))%nat.
Proof. intros H. rewrite <- (pre_S _ _ _ H). rewrite <- (pre_all bs (Nat.max (S i) (length bs))) by lia. apply pre_mono. lia. Qed.
Lemma block_nth {A} (bs : list (list A)) i b d : nth_error bs i = Some b -> (d < length b)%nat -> nth_error (concat bs) (pre bs i + d) = nth_error b d.
Proof.
  unfold pre. revert i; induction bs as [|c bs IH]; intros [|i] H Hd; cbn [nth_error firstn concat] in *; try discriminate.
  - apply some_inj in H. subst c. cbn [length Nat.add]. apply nth_error_app1. auto.
  - rewrite app_length. rewrite nth_error_app2 by lia. rewrite <- (IH i H Hd). f_equal. lia.
Qed.
Lemma upd_app1 {A} (a b : list A) i v : (i < length a)%nat -> upd (a ++ b) i v = upd a i v ++ b.
Proof. revert i; induction a; intros [|i] H; cbn [app upd length] in *; try lia; auto. f_equal. apply IHa. lia. Qed.
Lemma upd_app2 {A} (a b : list A) i v : upd (a ++ b) (length a + i) v = a ++ upd b i v.
Proof. induction a; cbn [app length Nat.add upd]; auto. f_equal. auto. Qed.
Lemma block_upd {A} (bs : list (list A)) i b d v : nth_error bs i = Some b -> (d < length b)%nat -> upd (concat bs) (pre bs i + d) v = concat (upd bs i (upd b d v)).
Proof.
  unfold pre. revert i; induction bs as [|c bs IH]; intros [|i] H Hd; cbn [nth_error firstn concat upd] in *; try discriminate.
  - apply some_inj in H. subst c. cbn [length Nat.add]. apply upd_app1. auto.
  - rewrite app_length. replace (length c + length (concat (firstn i bs)) + d)%nat with (length c + (length (concat (firstn i bs)) + d))%nat by lia.
    rewrite upd_app2. f_equal. auto.
Qed.
Lemma upd_map {A B} (h : A -> B) l i v : map h (upd l i v) = upd (map h l) i (h v).
Proof. revert i; induction l; intros [|i]; cbn [map upd]; auto. f_equal; auto. Qed.
Lemma upd_ext_id {A} (l : list A) i v : nth_error l i = Some v -> upd l i v = l.
Proof. revert i; induction l; intros [|i] H; cbn [upd nth_error] in *; try discriminate; [apply some_inj in H; congruence|f_equal; auto]. Qed.
Lemma Forall_upd {A} (P : A -> Prop) l i v : Forall P l -> P v -> Forall P (upd l i v).
Proof. intros H Hv. revert i; induction H; intros [|i]; cbn [upd]; auto. Qed.

Section MP.
  Variable D : Type.
  Notation bl subs := (map (@r_docs D) subs).
  Notation sr := (sr D).

  (* ---------- starts *)
  Lemma starts_nth subs : forall m i, (i <= length subs)%nat -> nth_error (starts_from D m subs) i = Some (m + Z.of_nat (pre (bl subs) i)).
  Proof.
    induction subs as [|s t IH]; intros m [|i] H; cbn [length starts_from nth_error map] in *; try lia.
    - f_equal. unfold pre. cbn. lia.
    - f_equal. unfold pre. cbn. lia.
    - rewrite IH by lia. f_equal. unfold pre. cbn [firstn concat]. rewrite app_length. lia.
  Qed.
  Lemma starts_len subs : forall m, length (starts_from D m subs) = S (length subs).
  Proof. induction subs; intros; cbn [starts_from length]; auto. Qed.
  Lemma total_from subs : forall m, fold_left (fun m (s : sr) => m + Z.of_nat (length (r_docs s))) subs m = m + Z.of_nat (length (concat (bl subs))).
  Proof. induction subs as [|s t IH]; intros m; cbn [fold_left map concat length]; [lia|]. rewrite IH, app_length. lia. Qed.
  Lemma total_ok subs : total D subs = Z.of_nat (length (concat (bl subs))).
  Proof. unfold total. rewrite total_from. lia. Qed.

  (* ---------- the binary search *)
  Definition st (subs : list sr) (i : Z) : Z := Z.of_nat (pre (bl subs) (Z.to_nat i)).
  Lemma at_st subs i : 0 <= i <= Z.of_nat (length subs) -> at_start (starts_from D 0 subs) i = Some (st subs i).
  Proof. intros H. unfold at_start. rewrite (proj2 (Z.ltb_ge i 0)) by lia. rewrite starts_nth by lia. reflexivity. Qed.
  Lemma st_mono subs i j : 0 <= i <= j -> st subs i <= st subs j.
  Proof. intros. unfold st. pose proof (pre_mono (bl subs) (Z.to_nat i) (Z.to_nat j)). lia. Qed.
  Lemma st_end subs : st subs (Z.of_nat (length subs)) = Z.of_nat (length (concat (bl subs))).
  Proof. unfold st. rewrite pre_all; auto. rewrite map_length. lia. Qed.
  Definition lands (subs : list sr) (doc : Z) (r : option Z) : Prop :=
    exists i, r = Some i /\ 0 <= i < Z.of_nat (length subs) /\ st subs i <= doc < st subs (i + 1).
  Lemma last_match_ok subs doc : doc < st subs (Z.of_nat (length subs)) -> forall m mid, (Z.to_nat (Z.of_nat (length subs) - mid) < m)%nat -> 0 <= mid < Z.of_nat (length subs) -> st subs mid = doc ->
    lands subs doc (last_match m (starts_from D 0 subs) (Z.of_nat (length subs)) mid doc).
  Proof.
    intros He. induction m as [|m IH]; intros mid Hm Hr Hs; [lia|]. cbn [last_match]. destruct (Z.ltb_spec (mid + 1) (Z.of_nat (length subs))) as [H|H].
    - rewrite at_st by lia. cbn [obind]. destruct (Z.eqb_spec (st subs (mid + 1)) doc) as [E|E]; [apply IH; auto; lia|].
      exists mid. split; [reflexivity|]. pose proof (st_mono subs mid (mid + 1)). lia.
    - exists mid. split; [reflexivity|]. replace (mid + 1) with (Z.of_nat (length subs)) by lia. lia.
  Qed.
  Lemma search_ok subs doc : 0 <= doc < Z.of_nat (length (concat (bl subs))) -> forall m lo hi, (Z.to_nat (hi - lo + 1) < m)%nat -> 0 <= lo -> lo <= hi + 1 -> hi < Z.of_nat (length subs) ->
    (forall j, 0 <= j < lo -> st subs j <= doc) -> (forall j, hi < j <= Z.of_nat (length subs) -> doc < st subs j) ->
    lands subs doc (search m (starts_from D 0 subs) (Z.of_nat (length subs)) lo hi doc).
  Proof.
    intros Hd. induction m as [|m IH]; intros lo hi Hm H0 H1 H2 HL HH; [lia|]. cbn [search]. destruct (Z.leb_spec lo hi) as [H|H].
    - assert (Hmid : lo <= Z.shiftr (lo + hi) 1 <= hi). { rewrite Z.shiftr_div_pow2 by lia. change (2 ^ 1) with 2. split; [apply Z.div_le_lower_bound; lia|apply Z.div_le_upper_bound; lia]. }
      set (mid := Z.shiftr (lo + hi) 1) in *. rewrite at_st by lia. cbn [obind]. destruct (Z.ltb_spec doc (st subs mid)) as [E|E].
      + apply IH; try lia; auto. intros j Hj. destruct (Z_lt_le_dec hi j); [apply HH; lia|]. pose proof (st_mono subs mid j). lia.
      + destruct (Z.ltb_spec (st subs mid) doc) as [E2|E2].
        * apply IH; try lia; auto. intros j Hj. pose proof (st_mono subs j mid). lia.
        * assert (Es : st subs mid = doc) by lia. rewrite Es. apply last_match_ok; auto; [rewrite st_end; lia| |lia].
          rewrite starts_len. lia.
    - assert (lo = hi + 1) by lia. subst lo. destruct (Z_lt_le_dec hi 0) as [Hn|Hn].
      + exfalso. specialize (HH 0). assert (st subs 0 = 0) by reflexivity. lia.
      + exists hi. split; [reflexivity|]. split; [lia|]. split; [apply HL; lia|apply HH; lia].
  Qed.
  Lemma index_ok subs doc : 0 <= doc < Z.of_nat (length (concat (bl subs))) ->
    lands subs doc (search (S (length subs)) (starts_from D 0 subs) (Z.of_nat (length subs)) 0 (Z.of_nat (length subs) - 1) doc).
  Proof.
    intros Hd. apply search_ok; auto; try lia. intros j Hj. assert (j = Z.of_nat (length subs)) by lia. subst j. rewrite st_end. lia.
  Qed.
  Definition place (subs : list sr) (doc : Z) (i : nat) (s : sr) (d : nat) : Prop :=
    nth_error subs i = Some s /\ (d < length (r_docs s))%nat /\ Z.to_nat doc = (pre (bl subs) i + d)%nat.
  Lemma reader_ok m doc : m_starts m = starts_from D 0 (m_subs m) -> 0 <= doc < Z.of_nat (length (concat (bl (m_subs m)))) ->
    exists i s d, get_reader D m doc = Some (i, s, d) /\ place (m_subs m) doc i s d.
  Proof.
    intros Hs Hd. unfold get_reader, reader_index. rewrite Hs. destruct (index_ok (m_subs m) doc Hd) as (i & -> & Hi & Hr). cbn [obind]. rewrite at_st by lia. cbn [obind].
    destruct (nth_error (m_subs m) (Z.to_nat i)) as [s|] eqn:E; [|apply nth_error_None in E; lia]. cbn [obind]. eexists _, _, _. split; [reflexivity|].
    assert (Eb : nth_error (bl (m_subs m)) (Z.to_nat i) = Some (r_docs s)) by (rewrite nth_error_map, E; reflexivity).
    unfold st in Hr. replace (Z.to_nat (i + 1)) with (S (Z.to_nat i)) in Hr by lia. rewrite (pre_S _ _ _ Eb) in Hr. unfold st.
    split; [exact E|]. split; lia.
  Qed.
  (* blocks of the same lengths as the documents *)
  Lemma pre_same {A} (subs : list sr) (bs : list (list A)) i : map (@length A) bs = map (fun s => length (r_docs s)) subs -> pre bs i = pre (bl subs) i.
  Proof.
    unfold pre. revert bs i; induction subs as [|s t IH]; intros [|b bs] [|i] H; cbn [map] in H; try discriminate; auto; try reflexivity.
    cbn [map firstn concat]. rewrite !app_length. injection H as H1 H2. rewrite (IH bs i H2), H1. reflexivity.
  Qed.
  Lemma dels_len (s : sr) : length (dels D s) = length (r_docs s).
  Proof. unfold dels. rewrite map_length, seq_length. reflexivity. Qed.
  Lemma dels_lens (subs : list sr) : map (@length bool) (map (dels D) subs) = map (fun s => length (r_docs s)) subs.
  Proof. rewrite map_map. apply map_ext. apply dels_len. Qed.
  Lemma len_same {A} (subs : list sr) (bs : list (list A)) : map (@length A) bs = map (fun s => length (r_docs s)) subs -> length (concat bs) = length (concat (bl subs)).
  Proof.
    revert bs; induction subs as [|s t IH]; intros [|b bs] H; cbn [map] in H; try discriminate; auto.
    injection H as H1 H2. cbn [map concat]. rewrite !app_length, (IH bs H2), H1. reflexivity.
  Qed.
  Lemma dels_nth (s : sr) d : (d < length (r_docs s))%nat -> nth_error (dels D s) d = Some (sr_is_deleted D s d).
  Proof.
    intros H. unfold dels. rewrite nth_error_map. assert (nth_error (seq 0 (length (r_docs s))) d = Some d) as ->; [|reflexivity].
    assert (E : nth d (seq 0 (length (r_docs s))) O = d) by (rewrite seq_nth; lia). rewrite <- E at 2. apply nth_error_nth'. rewrite seq_length. auto.
  Qed.
  Lemma memb_in d l : memb d l = true <-> In d l.
  Proof. unfold memb. rewrite existsb_exists. split; [intros (x & Hx & E); apply Nat.eqb_eq in E; subst; auto|intros H; exists d; split; auto; apply Nat.eqb_refl]. Qed.
  Lemma nth_ext_e {A} (a b : list A) : (forall i, nth_error a i = nth_error b i) -> a = b.
  Proof.
    revert b; induction a as [|x a IH]; intros [|y b] H; auto.
    - specialize (H O). discriminate.
    - specialize (H O). discriminate.
    - f_equal; [specialize (H O); cbn in H; congruence|]. apply IH. intros i. exact (H (S i)).
  Qed.
  Lemma dels_delete (s : sr) d : (d < length (r_docs s))%nat -> dels D (sr_delete D s d) = upd (dels D s) d true.
  Proof.
    intros H. apply nth_ext_e. intros j. rewrite nth_error_upd. destruct (lt_dec j (length (r_docs s))) as [Hj|Hj].
    - rewrite dels_nth by auto. rewrite dels_nth by auto. unfold sr_is_deleted, sr_delete. cbn [r_del].
      rewrite dels_len, (proj2 (Nat.ltb_lt d _)) by auto. destruct (Nat.eqb_spec d j) as [<-|Hn]; cbn [andb].
      + f_equal. destruct (memb d match r_del s with Some l => l | None => [] end) eqn:E; auto. unfold memb. cbn [existsb]. rewrite Nat.eqb_refl. reflexivity.
      + f_equal. destruct (r_del s) as [l|].
        * destruct (memb d l) eqn:E; auto. unfold memb. cbn [existsb]. rewrite (proj2 (Nat.eqb_neq j d)) by auto. reflexivity.
        * unfold memb. cbn. rewrite (proj2 (Nat.eqb_neq j d)) by auto. reflexivity.
    - transitivity (@None bool); [apply nth_error_None; rewrite dels_len; cbn; lia|]. rewrite (proj2 (Nat.eqb_neq d j)) by lia. cbn [andb]. symmetry. apply nth_error_None. rewrite dels_len. lia.
  Qed.
  Lemma count_del (n : nat) (l : list nat) : NoDup l -> Forall (fun d => (d < n)%nat) l ->
    (length (filter negb (map (fun d => memb d l) (seq 0 n))) + length l = n)%nat.
  Proof.
    intros Hn Hf. assert (Hp : Permutation.Permutation (filter (fun d => memb d l) (seq 0 n)) l).
    { apply Permutation.NoDup_Permutation; auto; [apply NoDup_filter, seq_NoDup|]. intros x. rewrite filter_In, memb_in, in_seq. rewrite Forall_forall in Hf. split; [tauto|]. intros H. split; [specialize (Hf x H); lia|auto]. }
    apply Permutation.Permutation_length in Hp. rewrite <- Hp. clear Hp Hn Hf.
    assert (E : forall s, (length (filter negb (map (fun d => memb d l) s)) + length (filter (fun d => memb d l) s) = length s)%nat).
    { induction s as [|x s IH]; cbn [map filter]; auto. destruct (memb x l); cbn [negb length]; lia. }
    rewrite E, seq_length. reflexivity.
  Qed.
  Lemma num_docs_ok (subs : list sr) : Forall (sr_ok D) subs -> forall a, fold_left (fun a s => a + sr_num_docs D s) subs a = a + Z.of_nat (length (filter negb (concat (map (dels D) subs)))).
  Proof.
    induction 1 as [|s t Hs _ IH]; intros a; cbn [fold_left map concat]; [cbn; lia|]. rewrite IH, filter_app, app_length. destruct Hs as (Hd & _).
    unfold sr_num_docs, dels, sr_is_deleted. destruct (r_del s) as [l|].
    - destruct Hd as (Hn & Hf). pose proof (count_del _ _ Hn Hf). lia.
    - assert (E : forall n, length (filter negb (map (fun _ : nat => false) n)) = length n) by (induction n; cbn [map filter negb length]; auto). rewrite E, seq_length. lia.
  Qed.

  (* ---------- norms *)
  Definition val (x : option Z) : Z := match x with Some v => v | None => 0 end.
  Lemma find_norm_in l f b : find_norm l f = Some b -> In (f, b) l.
  Proof.
    unfold find_norm. destruct (find _ l) as [[n x]|] eqn:E; intros H; [|discriminate]. apply find_some in E. destruct E as [Hi E]. cbn [fst snd option_map] in *. apply Z.eqb_eq in E. apply some_inj in H. subst. exact Hi.
  Qed.
  Lemma norm_len mp f i (s : sr) : sr_ok D s -> length (norm_of D mp f i s) = length (r_docs s).
  Proof.
    intros (_ & Hn). unfold norm_of. destruct (fnum mp i f) as [n|]; [|apply repeat_length]. destruct (0 <=? n); [|apply repeat_length].
    destruct (find_norm (r_norms s) n) as [b|] eqn:E; [|apply repeat_length]. rewrite map_length. apply find_norm_in in E. rewrite Forall_forall in Hn. apply Hn in E. exact E.
  Qed.
  Lemma norms_len mp f (subs : list sr) : Forall (sr_ok D) subs -> forall i, length (norms_of D mp f i subs) = length (concat (bl subs)).
  Proof. induction 1 as [|s t Hs _ IH]; intros i; cbn [norms_of map concat]; auto. rewrite !app_length, IH, norm_len; auto. Qed.
  Lemma map_val_some l : map val (map Some l) = l.
  Proof. rewrite map_map. rewrite <- (map_id l) at 2. apply map_ext. reflexivity. Qed.
  Lemma map_val_none n : map val (repeat None n) = repeat 0 n.
  Proof. induction n; cbn [repeat map val]; f_equal; auto. Qed.
  Definition row_ok (mp : option (list (list Z))) (f : Z) (i : nat) : Prop := match mp with None => True | Some rows => exists r, nth_error rows i = Some r /\ 0 <= f < Z.of_nat (length r) end.
  Lemma fnum_ok mp f i : row_ok mp f i -> exists n, fnum mp i f = Some n.
  Proof.
    unfold row_ok, fnum. destruct mp as [rows|]; [|eauto]. intros (r & -> & H). cbn [obind]. rewrite (proj2 (Z.ltb_ge f 0)) by lia.
    destruct (nth_error r (Z.to_nat f)) eqn:E; [eauto|]. apply nth_error_None in E. lia.
  Qed.
  Lemma repeat_skip {A} (x : A) n k : (k <= n)%nat -> skipn k (repeat x n) = repeat x (n - k).
  Proof. revert k; induction n; intros [|k] H; cbn [repeat skipn Nat.sub]; auto; try lia. apply IHn. lia. Qed.
  Lemma fill_ok mp f (subs : list sr) : Forall (sr_ok D) subs -> forall i done, (forall j, (i <= j < i + length subs)%nat -> row_ok mp f j) ->
    fill D mp f i subs (starts_from D (Z.of_nat (length done)) subs) (done ++ repeat 0 (length (concat (bl subs)))) = Some (done ++ map val (norms_of D mp f i subs)).
  Proof.
    induction 1 as [|s t Hs Ht IH]; intros i done Hr; cbn [fill starts_from map concat norms_of length] in *; [reflexivity|].
    destruct (fnum_ok mp f i) as (n & En); [apply Hr; lia|]. rewrite En. cbn [obind].
    assert (Hblk : (if 0 <=? n then put (done ++ repeat 0 (length (r_docs s ++ concat (bl t)))) (Z.to_nat (Z.of_nat (length done))) (sr_norms_into D s n) else done ++ repeat 0 (length (r_docs s ++ concat (bl t))))
      = (done ++ map val (norm_of D mp f i s)) ++ repeat 0 (length (concat (bl t)))).
    { unfold norm_of. rewrite En. rewrite app_length, repeat_app. unfold sr_norms_into, put. destruct (0 <=? n).
      - rewrite Nat2Z.id. rewrite firstn_app, firstn_all, Nat.sub_diag, firstn_O, app_nil_r.
        assert (Hl : length (match find_norm (r_norms s) n with Some b => b | None => repeat 0 (length (r_docs s)) end) = length (r_docs s)).
        { destruct (find_norm (r_norms s) n) as [b|] eqn:E; [|apply repeat_length]. destruct Hs as (_ & Hn). apply find_norm_in in E. rewrite Forall_forall in Hn. apply Hn in E. exact E. }
        rewrite Hl. rewrite skipn_app. rewrite (skipn_all2 done) by lia. replace (length done + length (r_docs s) - length done)%nat with (length (r_docs s)) by lia.
        rewrite skipn_app, (skipn_all2 (repeat 0 _)) by (rewrite repeat_length; lia). rewrite repeat_length, Nat.sub_diag. cbn [app skipn].
        rewrite <- app_assoc. do 2 f_equal. destruct (find_norm (r_norms s) n); [rewrite map_val_some|rewrite map_val_none]; reflexivity.
      - rewrite map_val_none, <- app_assoc. reflexivity. }
    rewrite Hblk. replace (Z.of_nat (length done) + Z.of_nat (length (r_docs s))) with (Z.of_nat (length (done ++ map val (norm_of D mp f i s)))).
    - rewrite IH by (intros j Hj; apply Hr; lia). rewrite map_app, app_assoc. reflexivity.
    - rewrite app_length, map_length, norm_len by auto. lia.
  Qed.
  (* without a map of fields *)
  Lemma norms_concat f (subs : list sr) : forall i, norms_of D None f i subs = concat (map (norm_of D None f O) subs).
  Proof. induction subs as [|s t IH]; intros i; cbn [norms_of map concat]; auto. rewrite IH. reflexivity. Qed.
  Lemma find_set l f n d v : find_norm (map (fun x => if fst x =? n then (fst x, upd (snd x) d v) else x) l) f =
    if f =? n then option_map (fun b => upd b d v) (find_norm l f) else find_norm l f.
  Proof.
    unfold find_norm. induction l as [|[k b] l IH]; cbn [map find option_map]; [destruct (f =? n); reflexivity|].
    cbn [fst snd]. destruct (Z.eqb_spec k n) as [Ek|Ek]; cbn [fst].
    - destruct (Z.eqb_spec k f) as [E|E]; cbn [option_map snd]; [|exact IH]. subst k f. rewrite Z.eqb_refl. reflexivity.
    - destruct (Z.eqb_spec k f) as [E|E]; cbn [option_map snd]; [|exact IH]. subst k. rewrite (proj2 (Z.eqb_neq f n)) by auto. reflexivity.
  Qed.
  Lemma norm_set f n d v (s : sr) : 0 <= f -> 0 <= n -> sr_ok D s -> (d < length (r_docs s))%nat ->
    norm_of D None f O (sr_set_norm D s d n v) = if f =? n then upd_with (norm_of D None f O s) d (set_norm v) else norm_of D None f O s.
  Proof.
    intros Hf Hn Hs Hd. pose proof (norm_len None f O s Hs) as Hl. unfold norm_of, fnum in *. rewrite (proj2 (Z.leb_le 0 f)) in * by lia. cbn [sr_set_norm r_norms r_docs]. rewrite find_set.
    destruct (f =? n); [|reflexivity]. unfold upd_with. destruct (find_norm (r_norms s) f) as [b|]; cbn [option_map].
    - rewrite nth_error_map. rewrite map_length in Hl. destruct (nth_error b d) as [x|] eqn:E; [|apply nth_error_None in E; lia]. cbn [option_map set_norm]. rewrite upd_map. reflexivity.
    - assert (E : nth_error (repeat (@None Z) (length (r_docs s))) d = Some None).
      { rewrite (nth_error_nth' _ None) by (rewrite repeat_length; auto). rewrite nth_repeat. reflexivity. }
      rewrite E. cbn [set_norm]. symmetry. apply upd_ext_id. exact E.
  Qed.
  Lemma sr_ok_set s d n v : sr_ok D s -> sr_ok D (sr_set_norm D s d n v).
  Proof.
    intros (H1 & H2). split; [exact H1|]. cbn [sr_set_norm r_norms r_docs]. rewrite Forall_map. eapply Forall_impl; [|exact H2]. intros [k b] H. cbn [fst snd] in *. destruct (k =? n); cbn [snd]; auto. rewrite upd_length. auto.
  Qed.
  Lemma sr_ok_delete s d : sr_ok D s -> (d < length (r_docs s))%nat -> sr_ok D (sr_delete D s d).
  Proof.
    intros (H1 & H2) Hd. split; [|exact H2]. cbn [sr_delete r_del r_docs]. destruct (memb d match r_del s with Some l => l | None => [] end) eqn:E.
    - destruct (r_del s); [exact H1|discriminate].
    - assert (~ In d match r_del s with Some l => l | None => [] end) by (intros H; apply memb_in in H; congruence).
      split; constructor; auto; destruct (r_del s); try constructor; tauto.
  Qed.
  Lemma upd_docs (subs : list sr) i s s' : nth_error subs i = Some s -> r_docs s' = r_docs s -> bl (upd subs i s') = bl subs.
  Proof. intros H E. rewrite upd_map, E. apply upd_ext_id. rewrite nth_error_map, H. reflexivity. Qed.
  Lemma starts_docs (a b : list sr) : bl a = bl b -> forall m, starts_from D m a = starts_from D m b.
  Proof. revert b; induction a as [|x a IH]; intros [|y b] H m; cbn [map starts_from] in *; try discriminate; auto. injection H as H1 H2. rewrite H1. f_equal. auto. Qed.

  (* ---------- histories *)
  Definition R (nf : option Z) (m : mr D) (s : flat D) : Prop :=
    m_starts m = starts_from D 0 (m_subs m) /\ m_max m = Z.of_nat (length (concat (bl (m_subs m)))) /\ Forall (sr_ok D) (m_subs m) /\ map_ok D nf (m_map m) (m_subs m) /\
    fl_docs D s = concat (bl (m_subs m)) /\ fl_del D s = concat (map (dels D) (m_subs m)) /\ fl_has D s = m_has m /\
    (forall f, 0 <= f -> fl_norm D s f = norms_of D (m_map m) f O (m_subs m)) /\
    (forall n, m_num m = Some n -> n = Z.of_nat (length (filter negb (fl_del D s)))) /\
    (forall f b, 0 <= f -> find_norm (m_cache m) f = Some b -> b = map val (fl_norm D s f)).
  Lemma find_drop l f n : find_norm (filter (fun x => negb (fst x =? n)) l) f = if f =? n then None else find_norm l f.
  Proof.
    unfold find_norm. induction l as [|[k b] l IH]; cbn [filter find fst]; [destruct (f =? n); reflexivity|]. destruct (Z.eqb_spec k n) as [->|Hk]; cbn [negb].
    - rewrite IH. destruct (Z.eqb_spec f n) as [->|Hf]; auto. rewrite (proj2 (Z.eqb_neq n f)) by auto. reflexivity.
    - cbn [find fst]. destruct (Z.eqb_spec k f) as [->|]; [rewrite (proj2 (Z.eqb_neq f n)) by auto; reflexivity|exact IH].
  Qed.
  Lemma norms_lens f (subs : list sr) : Forall (sr_ok D) subs -> map (@length (option Z)) (map (norm_of D None f O) subs) = map (fun s => length (r_docs s)) subs.
  Proof. intros H. rewrite map_map. apply map_ext_in. intros s Hs. apply norm_len. rewrite Forall_forall in H. auto. Qed.
  Lemma rows_all nf mp (subs : list sr) f : map_ok D nf mp subs -> 0 <= f -> match nf with None => True | Some k => f < k end -> forall j, (0 <= j < 0 + length subs)%nat -> row_ok mp f j.
  Proof.
    unfold map_ok, row_ok. destruct mp as [rows|], nf as [k|]; try tauto. intros (Hl & HF) Hf Hk j Hj. destruct (nth_error rows j) as [r|] eqn:E; [|apply nth_error_None in E; lia].
    exists r. split; auto. apply nth_error_In in E. rewrite Forall_forall in HF. apply HF in E. lia.
  Qed.
  Ltac splits_R H := destruct H as (?&?&?&?&?&?&?&?&?&?); repeat match goal with |- _ /\ _ => split end; auto.
  Definition no_set (o : mop) : Prop := match o with MSetNorm _ _ _ => False | _ => True end.
  Lemma step_ok nf m s o : R nf m s -> op_ok (Z.of_nat (length (fl_docs D s))) nf o -> (m_map m = None \/ no_set o) ->
    exists m', mr_step D m o = Some (fst (flat_step D s o), m') /\ R nf m' (snd (flat_step D s o)) /\ m_map m' = m_map m /\ length (fl_docs D (snd (flat_step D s o))) = length (fl_docs D s).
  Proof.
    intros HR Hop Hset. pose proof HR as (Hst & Hmax & Hok & Hmp & Hdocs & Hdel & Hhas & Hnorm & Hnum & Hcache).
    assert (Hrd : forall d, 0 <= d < Z.of_nat (length (fl_docs D s)) -> exists i x l, get_reader D m d = Some (i, x, l) /\ place (m_subs m) d i x l) by (intros d Hd; apply reader_ok; auto; rewrite <- Hdocs; auto).
    assert (Hdn : forall d i x l, place (m_subs m) d i x l -> nth_error (fl_del D s) (Z.to_nat d) = Some (sr_is_deleted D x l)).
    { intros d i x l (P1 & P2 & P3). rewrite Hdel, P3, <- (pre_same (m_subs m) (map (dels D) (m_subs m)) i (dels_lens _)). rewrite (block_nth _ _ (dels D x)); [apply dels_nth; auto|rewrite nth_error_map, P1; reflexivity|rewrite dels_len; auto]. }
    assert (Hxn : forall d i x l, place (m_subs m) d i x l -> nth_error (fl_docs D s) (Z.to_nat d) = nth_error (r_docs x) l).
    { intros d i x l (P1 & P2 & P3). rewrite Hdocs, P3. apply block_nth; auto. rewrite nth_error_map, P1. reflexivity. }
    destruct o as [d|d|d| | | | |d f v|f]; cbn [mr_step flat_step fst snd op_ok] in *.
    - destruct (Hrd d Hop) as (i & x & l & E & P). unfold mr_get_doc. rewrite E. cbn [obind]. unfold nth_z. rewrite (proj2 (Z.ltb_ge d 0)) by lia. rewrite (Hdn _ _ _ _ P), (Hxn _ _ _ _ P). unfold sr_get_doc.
      destruct (sr_is_deleted D x l); cbn [obind]; [eauto|]. destruct P as (_ & P2 & _). destruct (nth_error (r_docs x) l) eqn:En; [|apply nth_error_None in En; lia]. cbn [obind]. eauto.
    - destruct (Hrd d Hop) as (i & x & l & E & P). unfold mr_is_deleted. rewrite E. cbn [obind]. unfold nth_z. rewrite (proj2 (Z.ltb_ge d 0)) by lia. rewrite (Hdn _ _ _ _ P). eauto.
    - unfold mr_delete, in_range. rewrite Hmax, <- Hdocs. destruct (Z.leb_spec 0 d) as [H0|H0]; cbn [andb obind]; [|eauto]. destruct (Z.ltb_spec d (Z.of_nat (length (fl_docs D s)))) as [H1|H1]; cbn [obind]; [|eauto].
      destruct (Hrd d (conj H0 H1)) as (i & x & l & E & P). rewrite E. cbn [obind]. eexists. split; [reflexivity|]. split; [|split; reflexivity]. destruct P as (P1 & P2 & P3).
      assert (Hb : bl (upd (m_subs m) i (sr_delete D x l)) = bl (m_subs m)) by (apply (upd_docs _ _ x); auto).
      unfold R. cbn [m_starts m_subs m_max m_map m_has m_num m_cache fl_docs fl_del fl_has fl_norm]. rewrite Hb.
      split; [rewrite Hst; apply starts_docs; auto|]. split; [rewrite <- Hdocs; first [reflexivity|rewrite Hdocs; exact Hmax]|]. split; [apply Forall_upd; auto; apply sr_ok_delete; auto; rewrite Forall_forall in Hok; apply Hok; eapply nth_error_In; eauto|].
      split; [unfold map_ok in *; rewrite upd_length; auto|]. split; [auto|]. split.
      { rewrite Hdel, P3, <- (pre_same (m_subs m) (map (dels D) (m_subs m)) i (dels_lens _)). rewrite (block_upd _ _ (dels D x)); [|rewrite nth_error_map, P1; reflexivity|rewrite dels_len; auto].
        rewrite upd_map, dels_delete by auto. reflexivity. }
      split; [reflexivity|]. split; [|split; [discriminate|exact Hcache]].
      intros f Hf. rewrite Hnorm by auto. clear - P1. assert (G : forall k subs i, nth_error subs i = Some x -> norms_of D (m_map m) f k subs = norms_of D (m_map m) f k (upd subs i (sr_delete D x l))).
      { intros k subs. revert k. induction subs as [|y t IH]; intros k [|j] Hj; cbn [nth_error upd norms_of] in *; try discriminate; [apply some_inj in Hj; subst; reflexivity|f_equal; auto]. }
      apply G. exact P1.
    - eexists. split; [reflexivity|]. split; [|split; reflexivity]. unfold R, mr_undelete. cbn [m_starts m_subs m_max m_map m_has m_num m_cache fl_docs fl_del fl_has fl_norm].
      assert (Hb : bl (map (sr_undelete D) (m_subs m)) = bl (m_subs m)) by (rewrite map_map; apply map_ext; reflexivity). rewrite Hb.
      split; [rewrite Hst; apply starts_docs; auto|]. split; [auto|]. split; [rewrite Forall_map; eapply Forall_impl; [|exact Hok]; intros x (_ & Hx); split; [exact I|exact Hx]|].
      split; [unfold map_ok in *; rewrite map_length; auto|]. split; [auto|]. split.
      { rewrite Hdel. clear. induction (m_subs m) as [|x t IH]; cbn [map concat]; auto. rewrite map_app, IH. f_equal. unfold dels. rewrite map_map. apply map_ext. reflexivity. }
      split; [reflexivity|]. split; [|split; [discriminate|exact Hcache]]. intros f Hf. rewrite Hnorm by auto. clear. generalize O. induction (m_subs m) as [|x t IH]; intros k; cbn [map norms_of]; auto. f_equal; auto.
    - unfold mr_num_docs. destruct (m_num m) as [n|] eqn:En.
      + rewrite (Hnum _ eq_refl). eexists. split; [reflexivity|]. auto.
      + rewrite num_docs_ok by auto. rewrite Z.add_0_l, <- Hdel. eexists. split; [reflexivity|]. split; [|auto]. unfold R. cbn [m_starts m_subs m_max m_map m_has m_num m_cache]. splits_R HR.
        intros n Hn. apply some_inj in Hn. auto.
    - rewrite Hmax, <- Hdocs. eexists. split; [reflexivity|]. auto.
    - rewrite Hhas. eexists. split; [reflexivity|]. auto.
    - destruct Hset as [Hset|[]]. destruct Hop as (Hd & Hf & _). destruct (Hrd d Hd) as (i & x & l & E & P). unfold mr_set_norm. rewrite E. cbn [obind]. rewrite Hset. cbn [fnum obind]. rewrite (proj2 (Z.leb_le 0 f)) by lia. cbn [obind].
      eexists. split; [reflexivity|]. split; [|split; [cbn; auto|reflexivity]]. destruct P as (P1 & P2 & P3).
      assert (Hx : sr_ok D x) by (rewrite Forall_forall in Hok; apply Hok; eapply nth_error_In; eauto).
      assert (Hb : bl (upd (m_subs m) i (sr_set_norm D x l f v)) = bl (m_subs m)) by (apply (upd_docs _ _ x); auto).
      assert (HN : forall g, 0 <= g -> (if g =? f then upd_with (fl_norm D s g) (Z.to_nat d) (set_norm v) else fl_norm D s g) = norms_of D None g O (upd (m_subs m) i (sr_set_norm D x l f v))).
      { intros g Hg. rewrite Hnorm by auto. rewrite Hset. rewrite !norms_concat. rewrite upd_map, norm_set by auto. destruct (g =? f).
        - unfold upd_with. rewrite P3, <- (pre_same (m_subs m) (map (norm_of D None g O) (m_subs m)) i (norms_lens _ _ Hok)).
          rewrite (block_nth _ _ (norm_of D None g O x)); [|rewrite nth_error_map, P1; reflexivity|rewrite norm_len; auto]. destruct (nth_error (norm_of D None g O x) l) as [y|] eqn:Ey.
          + apply block_upd; [rewrite nth_error_map, P1; reflexivity|rewrite norm_len; auto].
          + apply nth_error_None in Ey. rewrite norm_len in Ey by auto. lia.
        - symmetry. rewrite upd_ext_id; auto. rewrite nth_error_map, P1. reflexivity. }
      unfold R. cbn [m_starts m_subs m_max m_map m_has m_num m_cache fl_docs fl_del fl_has fl_norm]. rewrite Hb. rewrite ?Hset in *.
      split; [rewrite Hst; apply starts_docs; auto|]. split; [auto|]. split; [apply Forall_upd; auto; apply sr_ok_set; auto|]. split; [exact Hmp|]. split; [auto|]. split.
      { rewrite Hdel, upd_map. f_equal. symmetry. apply upd_ext_id. rewrite nth_error_map, P1. reflexivity. }
      split; [auto|]. split; [exact HN|]. split; [exact Hnum|]. intros g b Hg. rewrite find_drop. destruct (Z.eqb_spec g f); [discriminate|]. apply Hcache; auto.
    - destruct Hop as (Hf & Hk). unfold mr_get_norms. destruct (find_norm (m_cache m) f) as [b|] eqn:Ec.
      + cbn [obind fst snd]. rewrite (Hcache f b Hf Ec). eexists. split; [reflexivity|]. auto.
      + rewrite Hst, Hmax, Nat2Z.id. pose proof (fill_ok (m_map m) f (m_subs m) Hok O [] (rows_all nf _ _ f Hmp Hf Hk)) as Hfill. cbn [app length] in Hfill. change (Z.of_nat 0) with 0 in Hfill. rewrite Hfill.
        cbn [obind fst snd]. rewrite (Hnorm f Hf). eexists. split; [reflexivity|]. split; [|auto]. unfold R. cbn [m_starts m_subs m_max m_map m_has m_num m_cache]. rewrite <- Hst. splits_R HR.
        intros g b Hg. unfold find_norm. cbn [find fst snd]. destruct (Z.eqb_spec f g) as [->|]; cbn [option_map snd]; [|apply Hcache; auto]. intros Hb. apply some_inj in Hb. rewrite Hnorm by auto. auto.
  Qed.
  Lemma run_ok nf os : forall m s, R nf m s -> Forall (op_ok (Z.of_nat (length (fl_docs D s))) nf) os -> (m_map m = None \/ Forall no_set os) -> mr_run D m os = Some (flat_run D s os).
  Proof.
    induction os as [|o os IH]; intros m s HR Hop Hset; cbn [mr_run flat_run]; [reflexivity|].
    destruct (step_ok nf m s o HR (Forall_inv Hop)) as (m' & E & HR' & Em & El); [destruct Hset as [H|H]; [auto|right; apply (Forall_inv H)]|].
    rewrite E. cbn [obind fst snd]. destruct (flat_step D s o) as [r s']. cbn [fst snd] in *. rewrite (IH m' s'); [reflexivity|exact HR'|rewrite El; apply (Forall_inv_tail Hop)|].
    rewrite Em. destruct Hset as [H|H]; [auto|right; apply (Forall_inv_tail H)].
  Qed.
  Lemma new_R nf mp subs : Forall (sr_ok D) subs -> map_ok D nf mp subs -> R nf (mr_new D subs mp) (put_together D mp subs).
  Proof.
    intros H1 H2. unfold R, mr_new, put_together. cbn [m_starts m_subs m_max m_map m_has m_num m_cache fl_docs fl_del fl_has fl_norm].
    rewrite total_ok. repeat match goal with |- _ /\ _ => split end; auto; try discriminate; intros f b _ H; discriminate H.
  Qed.
  Lemma history nf mp subs os : Forall (sr_ok D) subs -> map_ok D nf mp subs -> Forall (op_ok (total D subs) nf) os -> (mp = None \/ Forall no_set os) ->
    mr_run D (mr_new D subs mp) os = Some (flat_run D (put_together D mp subs) os).
  Proof. intros H1 H2 H3 H4. apply (run_ok nf); auto; [apply new_R; auto|]. cbn [put_together fl_docs]. rewrite <- total_ok. exact H3. Qed.

  (* the number of documents before segment i *)
  Definition before (subs : list sr) (i : nat) : Z := Z.of_nat (length (concat (map r_docs (firstn i subs)))).
  Lemma before_pre subs i : before subs i = Z.of_nat (pre (bl subs) i).
  Proof. unfold before, pre. rewrite firstn_map. reflexivity. Qed.
  Lemma bijection subs mp : (forall doc, 0 <= doc < total D subs -> exists i s d, get_reader D (mr_new D subs mp) doc = Some (i, s, d) /\ nth_error subs i = Some s /\ (d < length (r_docs s))%nat /\ doc = before subs i + Z.of_nat d) /\
    (forall i s d, nth_error subs i = Some s -> (d < length (r_docs s))%nat -> 0 <= before subs i + Z.of_nat d < total D subs /\ get_reader D (mr_new D subs mp) (before subs i + Z.of_nat d) = Some (i, s, d)).
  Proof.
    rewrite total_ok. assert (A : forall doc, 0 <= doc < Z.of_nat (length (concat (bl subs))) -> exists i s d, get_reader D (mr_new D subs mp) doc = Some (i, s, d) /\ place subs doc i s d).
    { intros doc Hd. apply reader_ok; auto. }
    split.
    - intros doc Hd. destruct (A doc Hd) as (i & s & d & E & P1 & P2 & P3). exists i, s, d. rewrite before_pre. repeat split; auto. lia.
    - intros i s d Hi Hd. rewrite before_pre. assert (Eb : nth_error (bl subs) i = Some (r_docs s)) by (rewrite nth_error_map, Hi; reflexivity). pose proof (pre_le _ _ _ Eb) as Hle.
      split; [lia|]. destruct (A (Z.of_nat (pre (bl subs) i) + Z.of_nat d)) as (j & x & l & E & P1 & P2 & P3); [lia|]. rewrite E.
      replace (Z.to_nat (Z.of_nat (pre (bl subs) i) + Z.of_nat d)) with (pre (bl subs) i + d)%nat in P3 by lia.
      assert (Ex : nth_error (bl subs) j = Some (r_docs x)) by (rewrite nth_error_map, P1; reflexivity).
      assert (i = j). { destruct (lt_eq_lt_dec i j) as [[H| ->]|H]; auto; exfalso.
        - pose proof (pre_mono (bl subs) (S i) j H). rewrite (pre_S _ _ _ Eb) in H0. lia.
        - pose proof (pre_mono (bl subs) (S j) i H). rewrite (pre_S _ _ _ Ex) in H0. lia. }
      subst j. assert (x = s) by congruence. subst x. do 2 f_equal. lia.
  Qed.
End MP.
Lemma one_index : forall (D : Type) (subs : list (sr D)) os, Forall (sr_ok D) subs -> Forall (op_ok (total D subs) None) os ->
  mr_run D (mr_new D subs None) os = Some (flat_run D (put_together D None subs) os).
Proof. intros. apply (history D None); auto. exact I. Qed.
Lemma stale_norms : let subs := [mkSr [10] None [(0, [5]); (1, [6])]; mkSr [20] None [(0, [7]); (1, [8])]] in let mp := Some [[0; 1]; [1; 0]] in
  Forall (sr_ok Z) subs /\ map_ok Z (Some 2) mp subs /\
  mr_run Z (mr_new Z subs mp) [MNorms 0; MSetNorm 1 0 9; MNorms 0] = Some [MBytes [5; 8]; MUnit; MBytes [5; 8]] /\
  flat_run Z (put_together Z mp subs) [MNorms 0; MSetNorm 1 0 9; MNorms 0] = [MBytes [5; 8]; MUnit; MBytes [5; 9]].
Proof.
  intros subs mp. split; [|split; [|split; reflexivity]].
  - repeat constructor.
  - split; [reflexivity|]. repeat constructor.
Qed.
