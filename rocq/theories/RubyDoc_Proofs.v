(* Proofs about FieldSymbol and Document. *)
From Verif Require Import Util Codec_Model Seg_Model SortStr_Model RubyDoc_Model RubyDoc_Spec.
Open Scope Z_scope.

Lemma beqb_t x y : beqb x y = true <-> x = y.
Proof. unfold beqb. destruct (list_eq_dec Z.eq_dec x y); split; congruence. Qed.
Lemma beqb_f x y : beqb x y = false <-> x <> y.
Proof. unfold beqb. destruct (list_eq_dec Z.eq_dec x y); split; congruence. Qed.
Lemma beqb_same x : beqb x x = true. Proof. apply beqb_t. reflexivity. Qed.

(* ---------- FieldSymbol *)
Lemma responds_all s : responds s = true.
Proof. induction s; auto. Qed.
Lemma run_snoc s cs c : run s (cs ++ [c]) = match c with Type_ t => call_type (run s cs) t | Desc => call_desc (run s cs) end.
Proof. unfold run. rewrite fold_left_app. reflexivity. Qed.
Lemma run_type n cs : says_type cs (type_of (run (Sym n) cs)).
Proof.
  induction cs as [|c cs IH] using rev_ind; [constructor|]. rewrite run_snoc. destruct c as [t|]; [apply St_type|].
  unfold call_desc. rewrite responds_all. cbn. apply St_desc, IH.
Qed.
Lemma says_type_one cs t u : says_type cs t -> says_type cs u -> t = u.
Proof.
  intros H. revert u. induction H as [|cs t|cs t H IH]; intros u K; inversion K as [E|cs' t' E|cs' t' K' E]; subst; auto;
    try (symmetry in E; apply app_eq_nil in E; destruct E; discriminate); try (apply app_eq_nil in E; destruct E; discriminate);
    try (destruct cs; discriminate); apply app_inj_tail in E; destruct E as [E F]; try discriminate; [congruence|subst; auto].
Qed.
Lemma descs_snoc cs c : descs (cs ++ [c]) = (descs cs + descs [c])%nat.
Proof. unfold descs. rewrite filter_app, app_length. reflexivity. Qed.
Lemma run_desc n cs : desc_q (run (Sym n) cs) = Nat.odd (descs cs).
Proof.
  induction cs as [|c cs IH] using rev_ind; [reflexivity|]. rewrite run_snoc, descs_snoc. destruct c as [t|].
  - unfold call_type. rewrite responds_all. cbn. rewrite IH, Nat.add_0_r. reflexivity.
  - unfold call_desc. rewrite responds_all. cbn. rewrite IH, Nat.add_1_r, Nat.odd_succ, <- Nat.negb_odd. reflexivity.
Qed.
Lemma run_name n cs : to_s (run (Sym n) cs) = n.
Proof. induction cs as [|c cs IH] using rev_ind; [reflexivity|]. rewrite run_snoc. destruct c; exact IH. Qed.
Lemma run_other n cs : cs <> [] -> rval_of (run (Sym n) cs) = ROther.
Proof. destruct cs as [|c cs] using rev_ind; [congruence|]. intros _. rewrite run_snoc. destruct c; reflexivity. Qed.
Lemma sort_other : forall vs h b r, In ROther vs -> sort_add_all h vs b <> Ok r.
Proof.
  induction vs as [|v t IH]; intros h b r I E; [destruct I|]. destruct I as [->|I]; [discriminate|].
  cbn [sort_add_all] in E. destruct (sort_add h v b) as [[h1 ps]| |]; try discriminate.
  destruct (sort_add_all h1 t b) as [[h2 qs]| |] eqn:F; try discriminate. exact (IH _ _ _ I F).
Qed.
Lemma sort_fs h vs n cs b r : cs <> [] -> In (rval_of (run (Sym n) cs)) vs -> sort_init h vs b <> Ok r.
Proof.
  intros C I E. rewrite run_other in I; auto. unfold sort_init in E. destruct (sort_add_all h vs b) as [[h1 ps]| |] eqn:F; try discriminate.
  exact (sort_other _ _ _ _ I F).
Qed.
Lemma sort_fs_one h n cs b : cs <> [] -> sort_init h [rval_of (run (Sym n) cs)] b = ArgError.
Proof. intros C. rewrite run_other; auto. Qed.

(* ---------- Document *)
Lemma hget_put h k v k' : hget (hput h k v) k' = if beqb k k' then Some v else hget h k'.
Proof.
  induction h as [|[a w] t IH]; cbn [hput hget]; [reflexivity|]. destruct (beqb a k) eqn:A; cbn [hget].
  - apply beqb_t in A. subst a. destruct (beqb k k'); reflexivity.
  - destruct (beqb a k') eqn:B; [|exact IH]. apply beqb_t in B. subst a. destruct (beqb k k') eqn:C; [|reflexivity].
    apply beqb_t in C. apply beqb_f in A. congruence.
Qed.
Lemma hget_del h k k' : hget (hdel h k) k' = if beqb k k' then None else hget h k'.
Proof.
  induction h as [|[a w] t IH]; cbn [hdel filter hget fst]; [destruct (beqb k k'); reflexivity|]. fold (hdel t k).
  destruct (beqb a k) eqn:A; cbn [negb hget].
  - rewrite IH. apply beqb_t in A. subst a. destruct (beqb k k'); reflexivity.
  - destruct (beqb a k') eqn:B; [|exact IH]. apply beqb_t in B. subst a. destruct (beqb k k') eqn:C; [|reflexivity].
    apply beqb_t in C. apply beqb_f in A. congruence.
Qed.
Lemma build_snoc b ops o : build b (ops ++ [o]) = step (build b ops) o.
Proof. unfold build. rewrite fold_left_app. reflexivity. Qed.
Lemma has_keep ops o k v : o <> Delete k -> (forall w, o <> Store k w) -> (has (ops ++ [o]) k v <-> has ops k v).
Proof.
  intros D S. split.
  - intros (a & z & E & H). destruct z as [|c z _] using rev_ind.
    + apply app_inj_tail in E. destruct E as [_ E]. exfalso. exact (S _ E).
    + rewrite app_comm_cons, app_assoc in E. apply app_inj_tail in E. destruct E as [-> _]. exists a, z. split; auto. intros x I. apply H, in_or_app. auto.
  - intros (a & z & -> & H). exists a, (z ++ [o]). split; [rewrite <- app_assoc; reflexivity|]. intros x I. apply in_app_or in I. destruct I as [I|[<-|[]]]; auto.
Qed.
Lemma has_store ops k v w : has (ops ++ [Store k w]) k v <-> w = v.
Proof.
  split.
  - intros (a & z & E & H). destruct z as [|c z _] using rev_ind.
    + apply app_inj_tail in E. destruct E as [_ E]. congruence.
    + rewrite app_comm_cons, app_assoc in E. apply app_inj_tail in E. destruct E as [_ <-]. destruct (H (Store k w)) as [_ F]; [apply in_or_app; right; left; reflexivity|]. destruct (F w). reflexivity.
  - intros ->. exists ops, []. split; [reflexivity|]. intros o [].
Qed.
Lemma has_delete ops k v : ~ has (ops ++ [Delete k]) k v.
Proof.
  intros (a & z & E & H). destruct z as [|c z _] using rev_ind.
  - apply app_inj_tail in E. destruct E as [_ E]. congruence.
  - rewrite app_comm_cons, app_assoc in E. apply app_inj_tail in E. destruct E as [_ <-]. destruct (H (Delete k)) as [F _]; [apply in_or_app; right; left; reflexivity|]. apply F. reflexivity.
Qed.
Lemma build_has b ops k v : hget (d_hash (build b ops)) k = Some v <-> has ops k v.
Proof.
  revert v. induction ops as [|o ops IH] using rev_ind; intros v.
  - split; [discriminate|]. intros (a & z & E & _). destruct a; discriminate.
  - rewrite build_snoc. destruct o as [k' w|k'|c]; cbn [step d_hash].
    + rewrite hget_put. destruct (beqb k' k) eqn:B.
      * apply beqb_t in B. subst k'. rewrite has_store. split; congruence.
      * apply beqb_f in B. rewrite IH, has_keep; [reflexivity|discriminate|intros x E; congruence].
    + rewrite hget_del. destruct (beqb k' k) eqn:B.
      * apply beqb_t in B. subst k'. split; [discriminate|]. intros H. destruct (has_delete _ _ _ H).
      * apply beqb_f in B. rewrite IH, has_keep; [reflexivity|congruence|discriminate].
    + rewrite IH, has_keep; [reflexivity|discriminate|discriminate].
Qed.
Lemma build_boost b ops : boosted b ops (d_boost (build b ops)).
Proof.
  induction ops as [|o ops IH] using rev_ind; [right; split; [reflexivity|intros e []]|]. rewrite build_snoc.
  assert (K : (forall e, o <> Boost e) -> d_boost (step (build b ops) o) = d_boost (build b ops) -> boosted b (ops ++ [o]) (d_boost (step (build b ops) o))).
  { intros N ->. destruct IH as [(a & z & E & H)|[E H]].
    - left. exists a, (z ++ [o]). split; [rewrite E, <- app_assoc at 1; reflexivity|]. intros e I. apply in_app_or in I. destruct I as [I|[I|[]]]; [exact (H _ I)|exact (N _ I)].
    - right. split; auto. intros e I. apply in_app_or in I. destruct I as [I|[I|[]]]; [exact (H _ I)|exact (N _ I)]. }
  destruct o as [k w|k|c]; [apply K; [discriminate|reflexivity]|apply K; [discriminate|reflexivity]|].
  left. exists ops, []. split; [reflexivity|]. intros e [].
Qed.
Lemma boosted_one b ops c e : boosted b ops c -> boosted b ops e -> c = e.
Proof.
  induction ops as [|o ops IH] using rev_ind.
  - intros [(a & z & E & _)|[-> _]] [(a' & z' & E' & _)|[-> _]]; auto; try (destruct a; discriminate); destruct a'; discriminate.
  - assert (P : forall c, boosted b (ops ++ [o]) c -> (o = Boost c) \/ ((forall e, o <> Boost e) /\ boosted b ops c)).
    { intros x [(a & z & E & H)|[-> H]].
      - destruct z as [|y z _] using rev_ind; [apply app_inj_tail in E; destruct E as [_ ->]; auto|].
        rewrite app_comm_cons, app_assoc in E. apply app_inj_tail in E. destruct E as [-> ->]. right. split; [intros g ->; apply (H g), in_or_app; right; left; reflexivity|].
        left. exists a, z. split; auto. intros g I. apply (H g), in_or_app; auto.
      - right. split; [intros g ->; apply (H g), in_or_app; right; left; reflexivity|]. right. split; auto. intros g I. apply (H g), in_or_app; auto. }
    intros H K. destruct (P _ H) as [->|[N H']], (P _ K) as [E|[N' K']]; auto; try congruence; try (destruct (N' c); reflexivity); exfalso; eapply N; eauto.
Qed.

Lemma F2_impl {A B} (P Q : A -> B -> Prop) x y : (forall a b, P a b -> Q a b) -> Forall2 P x y -> Forall2 Q x y.
Proof. intros H. induction 1; constructor; auto. Qed.
Lemma leq_t {A} (eq : A -> A -> bool) x y : list_eqb eq x y = true <-> Forall2 (fun a b => eq a b = true) x y.
Proof.
  revert y. induction x as [|a x IH]; intros [|b y]; cbn [list_eqb]; split; intros H; try discriminate; try (inversion H; fail); try constructor; auto.
  - apply andb_prop in H. apply H.
  - apply IH. apply andb_prop in H. apply H.
  - inversion H; subst. apply andb_true_intro. split; auto. apply IH. auto.
Qed.
Lemma keys_t x y : list_eqb beqb x y = true <-> x = y.
Proof.
  rewrite leq_t. split; [|intros ->; induction y; constructor; auto; apply beqb_same].
  induction 1 as [|a b x y H _ IH]; [reflexivity|]. apply beqb_t in H. congruence.
Qed.
Lemma v_eq_t v w : v_eq v w = true <-> like v w.
Proof.
  split.
  - destruct v as [s|l|l b], w as [t|m|m c]; cbn [v_eq]; intros H; try discriminate.
    + apply beqb_t in H. subst. constructor.
    + apply keys_t in H. subst. constructor.
    + apply keys_t in H. subst. constructor.
    + apply andb_prop in H. destruct H as [B H]. apply Z.eqb_eq in B. apply keys_t in H. subst. constructor.
  - intros [u|l b]; [|apply keys_t; reflexivity]. destruct u; cbn [v_eq]; [apply beqb_same|apply keys_t; reflexivity|rewrite Z.eqb_refl; apply keys_t; reflexivity].
Qed.
Lemma eql_t d o : eql d o = true <-> d_boost o = d_boost d /\ map fst (d_hash d) = map fst (d_hash o) /\ Forall2 like (map snd (d_hash d)) (map snd (d_hash o)).
Proof.
  unfold eql. rewrite !andb_true_iff, Z.eqb_eq, keys_t, leq_t. split.
  - intros [[A B] C]. repeat split; auto. eapply F2_impl; [|exact C]. intros; apply v_eq_t; auto.
  - intros (A & B & C). repeat split; auto. eapply F2_impl; [|exact C]. intros; apply v_eq_t; auto.
Qed.
Lemma like_get : forall h g, map fst h = map fst g -> Forall2 like (map snd h) (map snd g) -> forall k,
  match hget h k, hget g k with Some v, Some w => like v w | None, None => True | _, _ => False end.
Proof.
  induction h as [|[a v] h IH]; intros [|[b w] g] K L k; cbn in K, L; try discriminate; [exact I|]. injection K as -> K. inversion L; subst.
  cbn [hget]. destruct (beqb b k); [assumption|]. apply IH; auto.
Qed.
Lemma eql_says b ops c ops' : eql (build b ops) (build c ops') = true ->
  (exists e, boosted b ops e /\ boosted c ops' e) /\ (forall k v, has ops k v -> exists w, has ops' k w /\ like v w) /\ (forall k w, has ops' k w -> exists v, has ops k v /\ like v w).
Proof.
  intros H. apply eql_t in H. destruct H as (B & K & L). pose proof (like_get _ _ K L) as G. split; [|split].
  - exists (d_boost (build b ops)). split; [apply build_boost|]. rewrite <- B. apply build_boost.
  - intros k v H. apply (build_has b) in H. specialize (G k). rewrite H in G. destruct (hget (d_hash (build c ops')) k) as [w|] eqn:E; [|destruct G]. exists w. split; auto. apply (build_has c), E.
  - intros k w H. apply (build_has c) in H. specialize (G k). rewrite H in G. destruct (hget (d_hash (build b ops)) k) as [v|] eqn:E; [|destruct G]. exists v. split; auto. apply (build_has b), E.
Qed.

(* keys occur once *)
Lemma put_keys h k v : NoDup (map fst h) -> NoDup (map fst (hput h k v)) /\ (forall x, In x (map fst (hput h k v)) -> x = k \/ In x (map fst h)).
Proof.
  induction h as [|[a w] t IH]; cbn [hput map fst]; intros N; [split; [constructor; [intros []|constructor]|intros x [<-|[]]; auto]|].
  inversion N as [|? ? N1 N2]; subst. destruct (IH N2) as [P Q]. destruct (beqb a k) eqn:B; cbn [map fst].
  - split; [constructor; auto|]. intros x I. right. exact I.
  - apply beqb_f in B. split; [constructor; auto; intros I; destruct (Q _ I); congruence|]. intros x [<-|I]; [right; left; reflexivity|]. destruct (Q _ I); [auto|right; right; auto].
Qed.
Lemma del_keys h k : NoDup (map fst h) -> NoDup (map fst (hdel h k)) /\ (forall x, In x (map fst (hdel h k)) -> In x (map fst h)).
Proof.
  unfold hdel. induction h as [|[a w] t IH]; cbn [filter map fst]; intros N; [split; auto|].
  inversion N as [|? ? N1 N2]; subst. destruct (IH N2) as [P Q]. destruct (beqb a k); cbn [negb map fst].
  - split; auto. intros x I. right. auto.
  - split; [constructor; auto|]. intros x [<-|I]; [left; reflexivity|right; auto].
Qed.
Lemma build_keys b ops : NoDup (map fst (d_hash (build b ops))).
Proof.
  induction ops as [|o ops IH] using rev_ind; [constructor|]. rewrite build_snoc. destruct o; cbn [step d_hash]; auto; [apply put_keys, IH|apply del_keys, IH].
Qed.
Lemma same_get : forall h g, NoDup (map fst h) -> map fst h = map fst g -> (forall k, hget h k = hget g k) -> h = g.
Proof.
  induction h as [|[a v] h IH]; intros [|[b w] g] N K G; cbn in K; try discriminate; [reflexivity|]. injection K as -> K. cbn in N. inversion N as [|? ? N1 N2]; subst.
  pose proof (G b) as E. cbn [hget] in E. rewrite beqb_same in E. injection E as ->. f_equal. apply IH; auto. intros k. specialize (G k). cbn [hget] in G.
  destruct (beqb b k) eqn:B; [|exact G]. apply beqb_t in B. subst k.
  assert (A : forall l : list (list Z * value), ~ In b (map fst l) -> hget l b = None).
  { induction l as [|[x y] l IL]; intros F; [reflexivity|]. cbn [hget]. destruct (beqb x b) eqn:C; [apply beqb_t in C; subst; destruct F; left; reflexivity|]. apply IL. intros I. apply F. right. exact I. }
  rewrite (A h), (A g); auto. rewrite <- K. exact N1.
Qed.
Lemma eql_refl d : eql d d = true.
Proof. apply eql_t. repeat split; auto. induction (map snd (d_hash d)); constructor; auto. constructor. Qed.
Lemma like_trans u v w : like u v -> like v w -> like u w.
Proof. intros [x|l b]; auto. intros K. inversion K; subst; constructor. Qed.
Lemma eql_trans d e f : eql d e = true -> eql e f = true -> eql d f = true.
Proof.
  rewrite !eql_t. intros (A & B & C) (A' & B' & C'). repeat split; try congruence. revert C'. generalize (map snd (d_hash f)) as z.
  induction C as [|x y l m H _ IH]; intros z K; inversion K; subst; constructor; eauto using like_trans.
Qed.
Lemma eql_same b ops c ops' : map fst (d_hash (build b ops)) = map fst (d_hash (build c ops')) -> (forall k v, has ops k v <-> has ops' k v) ->
  (exists e, boosted b ops e /\ boosted c ops' e) -> eql (build b ops) (build c ops') = true.
Proof.
  intros K H (e & B & B'). assert (E : d_hash (build b ops) = d_hash (build c ops')).
  { apply same_get; auto; [apply build_keys|]. intros k. destruct (hget (d_hash (build b ops)) k) as [v|] eqn:F.
    - symmetry. apply (build_has c), H, (build_has b), F.
    - destruct (hget (d_hash (build c ops')) k) as [v|] eqn:G; [|reflexivity]. apply (build_has c), H, (build_has b) in G. congruence. }
  assert (F : d_boost (build b ops) = d_boost (build c ops')) by (rewrite (boosted_one _ _ _ _ (build_boost b ops) B), (boosted_one _ _ _ _ (build_boost c ops') B'); reflexivity).
  destruct (build b ops) as [x h], (build c ops') as [y g]. cbn in E, F. subst. apply eql_refl.
Qed.
Lemma order_bad b k k' v w : k <> k' -> eql (build b [Store k v; Store k' w]) (build b [Store k' w; Store k v]) = false /\
  forall x u, has [Store k v; Store k' w] x u <-> has [Store k' w; Store k v] x u.
Proof.
  intros N. assert (A : beqb k k' = false) by (apply beqb_f; auto). assert (B : beqb k' k = false) by (apply beqb_f; auto). split.
  - unfold eql, build. cbn. rewrite A, B. cbn. rewrite Z.eqb_refl, A. reflexivity.
  - intros x u. rewrite <- !(build_has b). unfold build. cbn. rewrite A, B. cbn. destruct (beqb k x) eqn:E, (beqb k' x) eqn:F; try reflexivity.
    apply beqb_t in E, F. congruence.
Qed.
Lemma sym_bad b k l c : eql (build b [Store k (VArr l)]) (build b [Store k (VField l c)]) = true /\ eql (build b [Store k (VField l c)]) (build b [Store k (VArr l)]) = false.
Proof.
  split; [apply eql_t; repeat split; repeat constructor|]. destruct (eql (build b [Store k (VField l c)]) (build b [Store k (VArr l)])) eqn:E; [|reflexivity].
  apply eql_t in E. destruct E as (_ & _ & L). cbn in L. inversion L as [|? ? ? ? K]; subst. inversion K.
Qed.
