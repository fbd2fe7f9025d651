From Coq Require Import List ZArith Bool Arith Lia.
From Verif Require Import Util Text_Model Text_Spec Text_Proofs.
Import ListNotations.
Open Scope Z_scope.

Definition gives (r : option block) (s : str) : Prop := exists m, r = Some m /\ cstr m = Some s.

Lemma named_len : forall df f, (length (named df f) <= length f + 1)%nat.
Proof. intros df f. unfold named. destruct (same df f); len; lia. Qed.
Lemma named_clean : forall df f, clean f -> clean (named df f).
Proof. intros df f H. unfold named. destruct (same df f); [constructor|]. apply clean_app; [exact H|]. constructor; [discriminate|constructor]. Qed.
Lemma named_app : forall df f n, (length f + 1 <= n)%nat ->
  exists c', (if same df f then Some (alloc n, O) else do c' <- app (alloc n, O) f; app c' [58]) = Some c' /\ at_ c' (named df f) n.
Proof.
  intros df f n H. unfold named. destruct (same df f); [eexists; split; [reflexivity|apply alloc_at]|].
  destruct (app_ok (alloc n, O) [] n f (alloc_at n)) as (c1 & E1 & H1); [cbn [length]; lia|]. rewrite E1. cbn [obind].
  destruct (app_ok c1 _ n [58] H1) as (c2 & E2 & H2); [len; lia|]. exists c2. auto.
Qed.
Lemma named_print : forall df f n, (length f + 1 < n)%nat ->
  exists c', (if same df f then Some (alloc n, O) else print (alloc n, O) (f ++ [58])) = Some c' /\ at_ c' (named df f) n.
Proof.
  intros df f n H. unfold named. destruct (same df f); [eexists; split; [reflexivity|apply alloc_at]|].
  destruct (print_ok (alloc n, O) [] n (f ++ [58]) (alloc_at n)) as (c1 & E1 & H1); [len; lia|]. exists c1. split; [exact E1|]. apply ended_at. exact H1.
Qed.
Ltac bytes := repeat constructor; discriminate.

Lemma tq_ok : forall df f t b, clean f -> clean t -> finite_b b -> gives (tq_to_s df f t b) (named df f ++ t ++ tail b).
Proof.
  intros df f t b Hf Ht Hb. unfold tq_to_s, gives. pose proof (named_len df f) as L.
  destruct (named_app df f (34 + length f + length t)) as (c1 & E1 & H1); [lia|]. rewrite E1. cbn [obind].
  destruct (app_ok c1 _ _ t H1) as (c2 & E2 & H2); [lia|]. rewrite E2. cbn [obind].
  destruct (nul_ok c2 _ _ H2) as (c3 & E3 & H3); [len; lia|]. rewrite E3. cbn [obind].
  rewrite app_assoc. eapply boosted_ended; [exact H3|exact Hb|len; lia|]. apply clean_app; [apply named_clean|]; assumption.
Qed.
Lemma prq_ok : forall df f p b, clean f -> clean p -> finite_b b -> gives (prq_to_s df f p b) (named df f ++ p ++ [42] ++ tail b).
Proof.
  intros df f p b Hf Hp Hb. unfold prq_to_s, gives. pose proof (named_len df f) as L.
  destruct (named_print df f (length p + length f + 35)) as (c1 & E1 & H1); [lia|]. rewrite E1. cbn [obind].
  destruct (print_ok c1 _ _ (p ++ [42]) H1) as (c2 & E2 & H2); [try destruct first; len; lia|]. rewrite E2. cbn [obind].
  rewrite (app_assoc p), (app_assoc (named df f)). eapply boosted_ended; [exact H2|exact Hb|len; lia|].
  apply clean_app; [apply named_clean; assumption|]. apply clean_app; [assumption|bytes].
Qed.
Lemma wcq_ok : forall df f p b, clean f -> clean p -> finite_b b -> gives (wcq_to_s df f p b) (named df f ++ p ++ tail b).
Proof.
  intros df f p b Hf Hp Hb. unfold wcq_to_s, gives. pose proof (named_len df f) as L.
  destruct (named_print df f (length p + length f + 35)) as (c1 & E1 & H1); [lia|]. rewrite E1. cbn [obind].
  destruct (print_ok c1 _ _ p H1) as (c2 & E2 & H2); [try destruct first; len; lia|]. rewrite E2. cbn [obind].
  rewrite (app_assoc (named df f)). eapply boosted_ended; [exact H2|exact Hb|len; lia|].
  apply clean_app; [apply named_clean; assumption|]. assumption.
Qed.
Lemma fuzq_ok : forall df f t sim b, clean f -> clean t -> finite_b sim -> finite_b b ->
  gives (fuzq_to_s df f t sim b) (named df f ++ t ++ [126] ++ match sim with None => [] | Some x => number x end ++ tail b).
Proof.
  intros df f t sim b Hf Ht Hs Hb. unfold fuzq_to_s, gives. pose proof (named_len df f) as L.
  destruct (named_print df f (length t + length f + 70)) as (c1 & E1 & H1); [lia|]. rewrite E1. cbn [obind].
  destruct (print_ok c1 _ _ (t ++ [126]) H1) as (c2 & E2 & H2); [try destruct first; len; lia|]. rewrite E2. cbn [obind].
  assert (C : clean (named df f ++ t ++ [126])).
  { apply clean_app; [apply named_clean; assumption|]. apply clean_app; [assumption|bytes]. }
  destruct sim as [x|]; cbn [obind].
  - pose proof (number_length x Hs) as Lx.
    destruct (dbl_ok c2 _ _ x (ended_at _ _ _ H2) Hs) as (m & E3 & H3); [len; lia|].
    assert (Ec : snd c2 = length (named df f ++ t ++ [126])) by (destruct H2 as (r & _ & H2 & _); exact H2).
    rewrite E3. cbn [obind]. rewrite Ec. rewrite (cstr_end _ _ _ _ _ H3 (finite_clean x Hs)). cbn [obind].
    replace (named df f ++ t ++ [126] ++ number x ++ tail b) with (((named df f ++ t ++ [126]) ++ number x) ++ tail b) by (rewrite <- !app_assoc; reflexivity).
    eapply boosted_ended; [exact H3|exact Hb|len; lia|]. apply clean_app; [exact C|apply finite_clean, Hs].
  - replace (named df f ++ t ++ [126] ++ [] ++ tail b) with ((named df f ++ t ++ [126]) ++ tail b) by (rewrite <- !app_assoc; reflexivity).
    eapply boosted_ended; [exact H2|exact Hb|len; lia|exact C].
Qed.
Lemma range_clean : forall df r, fine_range r -> clean (range_s df r).
Proof.
  intros df r (Hf & Hl & Hu). unfold range_s. apply clean_app; [apply named_clean, Hf|].
  destruct (r_lower r) as [l|]; destruct (r_upper r) as [u|]; repeat apply clean_app; auto; try (destruct (r_incl r); bytes); try (destruct (r_incu r); bytes); bytes.
Qed.
Lemma range_ok : forall df r b, fine_range r -> finite_b b -> gives (range_to_s df r b) (range_s df r ++ tail b).
Proof.
  intros df r b Hr Hb. pose proof (range_clean df r Hr) as C. revert C. unfold range_to_s, gives, range_s. cbv zeta. pose proof (named_len df (r_field r)) as L. intros C.
  match goal with |- context [alloc ?n] => destruct (named_app df (r_field r) n) as (c1 & E1 & H1); [lia|] end. rewrite E1. cbn [obind].
  destruct (r_lower r) as [l|]; destruct (r_upper r) as [u|].
  - destruct (app_ok c1 _ _ [if r_incl r then 91 else 123] H1) as (c2 & E2 & H2); [try destruct first; len; lia|]. rewrite E2. cbn [obind].
    destruct (app_ok c2 _ _ l H2) as (c3 & E3 & H3); [len; lia|]. rewrite E3. cbn [obind].
    destruct (app_ok c3 _ _ [32] H3) as (c4 & E4 & H4); [len; lia|]. rewrite E4. cbn [obind].
    destruct (app_ok c4 _ _ u H4) as (c5 & E5 & H5); [len; lia|]. rewrite E5. cbn [obind].
    destruct (app_ok c5 _ _ [if r_incu r then 93 else 125] H5) as (c6 & E6 & H6); [len; lia|]. rewrite E6. cbn [obind].
    destruct (nul_ok c6 _ _ H6) as (c7 & E7 & H7); [len; lia|]. rewrite E7. cbn [obind]. rewrite <- !app_assoc in H7.
    eapply boosted_ended; [exact H7|exact Hb|len; lia|exact C].
  - destruct (app_ok c1 _ _ [if r_incl r then 91 else 123] H1) as (c2 & E2 & H2); [try destruct first; len; lia|]. rewrite E2. cbn [obind].
    destruct (app_ok c2 _ _ l H2) as (c3 & E3 & H3); [len; lia|]. rewrite E3. cbn [obind].
    destruct (app_ok c3 _ _ [62] H3) as (c4 & E4 & H4); [len; lia|]. rewrite E4. cbn [obind].
    destruct (nul_ok c4 _ _ H4) as (c7 & E7 & H7); [len; lia|]. rewrite E7. cbn [obind]. rewrite <- !app_assoc in H7.
    eapply boosted_ended; [exact H7|exact Hb|len; lia|exact C].
  - destruct (app_ok c1 _ _ [60] H1) as (c2 & E2 & H2); [try destruct first; len; lia|]. rewrite E2. cbn [obind].
    destruct (app_ok c2 _ _ u H2) as (c3 & E3 & H3); [len; lia|]. rewrite E3. cbn [obind].
    destruct (app_ok c3 _ _ [if r_incu r then 93 else 125] H3) as (c4 & E4 & H4); [len; lia|]. rewrite E4. cbn [obind].
    destruct (nul_ok c4 _ _ H4) as (c7 & E7 & H7); [len; lia|]. rewrite E7. cbn [obind]. rewrite <- !app_assoc in H7.
    eapply boosted_ended; [exact H7|exact Hb|len; lia|exact C].
  - destruct (app_ok c1 _ _ [60] H1) as (c2 & E2 & H2); [try destruct first; len; lia|]. rewrite E2. cbn [obind].
    destruct (app_ok c2 _ _ [62] H2) as (c3 & E3 & H3); [len; lia|]. rewrite E3. cbn [obind].
    destruct (nul_ok c3 _ _ H3) as (c7 & E7 & H7); [len; lia|]. rewrite E7. cbn [obind]. rewrite <- !app_assoc in H7.
    eapply boosted_ended; [exact H7|exact Hb|len; lia|exact C].
Qed.

(* boolean queries *)
Lemma grow_ok : forall fuel m i s n need, at_ (m, i) s n -> (0 < n)%nat -> (length s + need <= n + fuel)%nat ->
  exists m' n', grow fuel m (length s) need = Some m' /\ at_ (m', i) s n' /\ (length s + need <= n')%nat /\ (0 < n')%nat.
Proof.
  intros fuel. induction fuel as [|fuel IH]; intros m i s n need H Hn L; cbn [grow];
    assert (Ln : length m = n) by (destruct H as (r & _ & _ & H); exact H);
    assert (Ls : (length s <= n)%nat) by (destruct H as (r & H & _); cbn [fst] in H; rewrite H in Ln; len; lia); rewrite Ln.
  - destruct (n - length s <? need)%nat eqn:E; [apply Nat.ltb_lt in E; lia|]. apply Nat.ltb_ge in E. exists m, n. repeat split; auto; lia.
  - destruct (n - length s <? need)%nat eqn:E.
    + apply (IH (resize (2 * n) m) i s (2 * n)%nat need); [eapply resize_at; [exact H|lia]|lia|lia].
    + apply Nat.ltb_ge in E. exists m, n. repeat split; auto; lia.
Qed.
Definition clause_s (x : occur * bool * str) : str :=
  sign_of (fst (fst x)) ++ (if snd (fst x) then [40] ++ snd x ++ [41] else snd x).
Fixpoint spaced (first : bool) (l : list str) : str :=
  match l with [] => [] | s :: l' => (if first then [] else [32]) ++ s ++ spaced false l' end.
Lemma spaced_join : forall l, spaced true l = join [32] l.
Proof.
  assert (G : forall l, spaced false l = match l with [] => [] | _ => [32] ++ join [32] l end).
  { induction l as [|s l IH]; [reflexivity|]. cbn [spaced join]. rewrite IH. destruct l; [rewrite app_nil_r|]; reflexivity. }
  intros [|s l]; [reflexivity|]. cbn [spaced join]. rewrite G. destruct l; [rewrite app_nil_r|]; reflexivity.
Qed.
Lemma bq_loop_ok : forall cs first c s n, at_ c s n -> (length s < n)%nat ->
  exists c' n', bq_loop first cs c = Some c' /\ at_ c' (s ++ spaced first (map clause_s cs)) n' /\ (length (s ++ spaced first (map clause_s cs)) < n')%nat.
Proof.
  intros cs. induction cs as [|[[o sub] t] cs IH]; intros first c s n H Hn; cbn [bq_loop map spaced].
  - exists c, n. rewrite app_nil_r. auto.
  - destruct c as [m i]. cbn [fst snd]. assert (Ei : i = length s) by (destruct H as (r & _ & H & _); exact H). subst i.
    destruct (grow_ok (length s + length t + 5) m (length s) s n (length t + 5) H) as (m' & n' & E0 & H0 & L & _); [lia|lia|].
    rewrite E0. cbn [obind].
    assert (L1 : (length (if first then [] else [32%Z]) <= 1)%nat) by (destruct first; cbn; lia).
    assert (L2 : (length (sign_of o) <= 1)%nat) by (destruct o; cbn; lia).
    match goal with |- context [app (m', length s) ?l] => destruct (app_ok (m', length s) _ _ l H0) as (c1 & E1 & H1); [destruct first; len; lia|] end. rewrite E1. cbn [obind].
    destruct (app_ok c1 _ _ (sign_of o) H1) as (c2 & E2 & H2); [try destruct first; len; lia|]. rewrite E2. cbn [obind].
    match goal with |- context [app c2 ?l] => destruct (app_ok c2 _ _ l H2) as (c3 & E3 & H3); [destruct first, sub; len; lia|] end. rewrite E3. cbn [obind].
    destruct (app_ok c3 _ _ t H3) as (c4 & E4 & H4); [destruct first, sub; len; lia|]. rewrite E4. cbn [obind].
    match goal with |- context [app c4 ?l] => destruct (app_ok c4 _ _ l H4) as (c5 & E5 & H5); [destruct first, sub; len; lia|] end. rewrite E5. cbn [obind].
    rewrite <- !app_assoc in H5.
    assert (Es : (if first then [] else [32]) ++ sign_of o ++ (if sub then [40] else []) ++ t ++ (if sub then [41] else []) =
                 (if first then [] else [32]) ++ clause_s (o, sub, t)).
    { unfold clause_s. cbn [fst snd]. destruct sub; [reflexivity|rewrite app_nil_r; reflexivity]. }
    assert (H5' : at_ c5 (s ++ (if first then [] else [32]) ++ clause_s (o, sub, t)) n') by (rewrite <- Es; exact H5). clear H5. rename H5' into H5.
    assert (Lc : (length (clause_s (o, sub, t)) <= length t + 3)%nat) by (unfold clause_s; cbn [fst snd]; destruct sub; len; lia).
    destruct (IH false c5 _ n' H5) as (c6 & n6 & E6 & H6 & L6); [len; lia|].
    exists c6, n6. rewrite E6. rewrite <- !app_assoc in H6, L6. auto.
Qed.
Lemma bq_ok : forall cs b, Forall (fun x => clean (snd x)) cs -> finite_b b ->
  gives (bq_to_s cs b) (match b with None => join [32] (map clause_s cs) | Some x => [40] ++ join [32] (map clause_s cs) ++ [41; 94] ++ number x end).
Proof.
  intros cs b HC Hb. rewrite <- spaced_join.
  assert (C : forall first, clean (spaced first (map clause_s cs))).
  { clear Hb. induction HC as [|[[o sub] t] cs Ht HC IH]; intros first; cbn [map spaced]; [constructor|]. apply clean_app; [destruct first; bytes|].
    apply clean_app; [|apply IH]. unfold clause_s. cbn [fst snd] in *. apply clean_app; [destruct o; bytes|].
    destruct sub; [|exact Ht]. apply clean_app; [bytes|]. apply clean_app; [exact Ht|bytes]. }
  unfold bq_to_s, gives.
  match goal with |- context [app (alloc 64, O) ?l] => destruct (app_ok (alloc 64, O) [] 64 l (alloc_at 64)) as (c & E & H); [destruct b; cbn; lia|] end.
  rewrite E. cbn [obind]. cbn [List.app] in H.
  destruct (bq_loop_ok cs true c _ 64 H) as (c1 & n1 & E1 & H1 & L1); [destruct b; cbn; lia|]. rewrite E1. cbn [obind].
  destruct b as [x|].
  - destruct (strfmt_ok [Lit [41; 94]; Num x]) as (bm & E2 & E3).
    { constructor; [bytes|]. constructor; [exact Hb|constructor]. }
    rewrite E2. cbn [obind]. rewrite E3. cbn [obind map concat piece_s]. rewrite app_nil_r. set (bs := [41; 94] ++ number x).
    assert (Hbs : clean bs) by (apply clean_app; [bytes|apply finite_clean, Hb]).
    destruct c1 as [m i]. cbn [fst snd] in *. assert (Ei : i = length ([40] ++ spaced true (map clause_s cs))) by (destruct H1 as (r & _ & H1 & _); exact H1). subst i.
    set (s := [40] ++ spaced true (map clause_s cs)) in *.
    assert (H2 : at_ (resize (length s + length bs + 1) m, length s) s (length s + length bs + 1)) by (eapply shrink_at; [exact H1|lia]).
    destruct (app_ok _ _ _ bs H2) as (c2 & E4 & H4); [lia|]. rewrite E4. cbn [obind].
    destruct (nul_ok c2 _ _ H4) as (c3 & E5 & H5); [len; lia|]. rewrite E5. cbn [obind]. exists (fst c3). split; [reflexivity|].
    rewrite (ended_cstr _ _ _ H5); [unfold s; rewrite <- app_assoc; reflexivity|]. apply clean_app; [|exact Hbs]. apply clean_app; [bytes|apply C].
  - destruct (nul_ok c1 _ _ H1) as (c2 & E2 & H2); [exact L1|]. rewrite E2. cbn [obind]. exists (fst c2). split; [reflexivity|].
    cbn [List.app] in H2. eapply ended_cstr; [exact H2|apply C].
Qed.

(* phrases *)
Lemma insert_sum : forall (g : Z * list str -> nat) p l k,
  fold_right (fun x n => g x + n)%nat k (insert p l) = (g p + fold_right (fun x n => g x + n)%nat k l)%nat.
Proof.
  intros g p l k. induction l as [|q l IH]; cbn [insert fold_right]; [reflexivity|]. destruct (pos_le p q); cbn [fold_right]; [reflexivity|]. rewrite IH. lia.
Qed.
Lemma insert_In : forall p l x, In x (insert p l) <-> x = p \/ In x l.
Proof.
  intros p l x. induction l as [|q l IH]; cbn [insert In]; [intuition congruence|]. destruct (pos_le p q); cbn [In]; [intuition congruence|]. rewrite IH. intuition congruence.
Qed.
Lemma sort_In : forall l x, In x (sort l) <-> In x l.
Proof. intros l x. unfold sort. induction l as [|p l IH]; cbn [fold_right In]; [reflexivity|]. rewrite insert_In, IH. intuition congruence. Qed.
Lemma sort_nonempty : forall p l, sort (p :: l) <> [].
Proof. intros p l. unfold sort. cbn [fold_right]. destruct (fold_right insert [] l); cbn [insert]; [discriminate|]. destruct (pos_le p p0); discriminate. Qed.
Inductive ascending : list (Z * list str) -> Prop :=
  | asc_nil : ascending []
  | asc_one p : ascending [p]
  | asc_cons p q l : fst p <= fst q -> ascending (q :: l) -> ascending (p :: q :: l).
Lemma pos_le_fst : forall p q, pos_le p q = true -> fst p <= fst q.
Proof. intros p q. unfold pos_le. destruct (fst p <? fst q) eqn:E1; [intros; lia|]. destruct (fst q <? fst p) eqn:E2; [discriminate|intros; lia]. Qed.
Lemma pos_le_false : forall p q, pos_le p q = false -> fst q <= fst p.
Proof. intros p q. unfold pos_le. destruct (fst p <? fst q) eqn:E1; [discriminate|]. intros; lia. Qed.
Lemma insert_asc : forall p l, ascending l -> ascending (insert p l).
Proof.
  intros p l H. induction H as [|q|q r l Hq H IH]; cbn [insert].
  - constructor.
  - destruct (pos_le p q) eqn:E; constructor; try constructor; [apply pos_le_fst|apply pos_le_false]; exact E.
  - cbn [insert] in IH. destruct (pos_le p q) eqn:E; [constructor; [apply pos_le_fst; exact E|constructor; assumption]|].
    destruct (pos_le p r) eqn:E2; constructor; try assumption. apply pos_le_false. exact E.
Qed.
Lemma sort_asc : forall l, ascending (sort l).
Proof. intros l. unfold sort. induction l as [|p l IH]; cbn [fold_right]; [constructor|apply insert_asc, IH]. Qed.

(* the length of each place when it is written: its words and one byte behind each *)
Definition words (ts : list str) : str := concat (map (fun t => t ++ [124]) ts).
Lemma terms_ok : forall ts c s n, at_ c s n -> (length s + length (words ts) <= n)%nat ->
  exists c', terms ts c = Some c' /\ at_ c' (s ++ words ts) n.
Proof.
  intros ts. induction ts as [|t ts IH]; intros c s n H L; cbn [terms]; unfold words in *; cbn [map concat] in *.
  - exists c. rewrite app_nil_r. auto.
  - destruct (app_ok c s n t H) as (c1 & E1 & H1); [len; lia|]. rewrite E1. cbn [obind].
    destruct (app_ok c1 _ n [124] H1) as (c2 & E2 & H2); [try destruct first; len; lia|]. rewrite E2. cbn [obind].
    destruct (IH c2 _ n H2) as (c3 & E3 & H3); [len; lia|]. exists c3. rewrite E3. rewrite <- !app_assoc in *. auto.
Qed.
Lemma words_join : forall ts, ts <> [] -> words ts = join [124] ts ++ [124].
Proof.
  intros ts H. unfold words. induction ts as [|t ts IH]; [congruence|]. cbn [map concat join]. destruct ts as [|t' ts]; [cbn [map concat]; apply app_nil_r|].
  rewrite IH by discriminate. rewrite <- !app_assoc. reflexivity.
Qed.
Lemma words_len : forall ts, length (words ts) = fold_right (fun t k => length t + 1 + k)%nat O ts.
Proof. intros ts. unfold words. induction ts as [|t ts IH]; cbn [map concat fold_right]; len; lia. Qed.
Lemma blanks_ok : forall k c s n, at_ c s n -> (length s + 3 * k <= n)%nat ->
  exists c', blanks k c = Some c' /\ at_ c' (s ++ concat (repeat [60; 62; 32] k)) n.
Proof.
  intros k. induction k as [|k IH]; intros c s n H L; cbn [blanks repeat concat].
  - exists c. rewrite app_nil_r. auto.
  - destruct (app_ok c s n [60; 62; 32] H) as (c1 & E1 & H1); [len; lia|]. rewrite E1. cbn [obind].
    destruct (IH c1 _ n H1) as (c2 & E2 & H2); [len; lia|]. exists c2. rewrite E2. rewrite <- !app_assoc in *. auto.
Qed.
Lemma blanks_len : forall k, length (concat (repeat [60; 62; 32] k)) = (3 * k)%nat.
Proof. intros k. induction k as [|k IH]; cbn [repeat concat]; len; lia. Qed.
Definition place_len (p : Z * list str) : nat := fold_right (fun t k => length t + 5 + k)%nat O (snd p).
Lemma words_place : forall p, (length (words (snd p)) <= place_len p)%nat.
Proof. intros p. rewrite words_len. unfold place_len. induction (snd p) as [|t ts IH]; cbn [fold_right]; lia. Qed.
Definition sum_len (ps : list (Z * list str)) : nat := fold_right (fun p n => place_len p + n)%nat O ps.
Definition top (prev : Z) (ps : list (Z * list str)) : Z := fst (last ps (prev, [])).
Lemma last_any : forall {A} (l : list A) x d e, last (x :: l) d = last (x :: l) e.
Proof. intros A l. induction l as [|y l IH]; intros x d e; [reflexivity|]. apply (IH y). Qed.
Lemma top_cons : forall prev p ps, top prev (p :: ps) = top (fst p) ps.
Proof. intros prev p ps. unfold top. destruct ps as [|q ps]; [reflexivity|]. f_equal. change (last (p :: q :: ps) (prev, [])) with (last (q :: ps) (prev, [])). apply last_any. Qed.
Lemma asc_top : forall ps p, ascending (p :: ps) -> fst p <= top (fst p) ps.
Proof.
  intros ps. induction ps as [|q ps IH]; intros p H; [unfold top; cbn; lia|]. inversion H as [| |p' q' l Hpq Hq]; subst.
  rewrite top_cons. specialize (IH q Hq). lia.
Qed.
Lemma ph_loop_ok : forall ps prev c s n,
  (forall p, In p ps -> fine_pos p) -> ascending ((prev, []) :: ps) -> - 2 ^ 30 <= prev -> at_ c (s ++ [32]) n ->
  (length s + 1 + sum_len ps + 3 * Z.to_nat (top prev ps - prev) <= n)%nat ->
  exists c', ph_loop prev ps c = Some c' /\ at_ c' (s ++ places prev ps ++ [32]) n /\ (length (places prev ps) <= sum_len ps + 3 * Z.to_nat (top prev ps - prev))%nat.
Proof.
  intros ps. induction ps as [|[p ts] ps IH]; intros prev c s n HF HA Hp H L; cbn [ph_loop places].
  - exists c. split; [reflexivity|]. split; [exact H|cbn; lia].
  - destruct (HF (p, ts) (or_introl eq_refl)) as (Hr & Nt & Ct). cbn [fst snd] in *.
    inversion HA as [| |p' q' l Hpq HA']; subst. cbn [fst] in Hpq.
    assert (HA2 : ascending ((p, []) :: ps)).
    { inversion HA' as [|p0|p0 q0 l0 Hq0 HA'']; subst; constructor; assumption. }
    rewrite top_cons in *. cbn [fst] in *. cbn [sum_len fold_right] in L. fold (sum_len ps) in L.
    pose proof (asc_top _ _ HA2) as Ht. cbn [fst] in Ht. change (top p ps) with (top p ps) in Ht.
    pose proof (words_place (p, ts)) as Lw. cbn [snd] in Lw.
    assert (Ln : (length s + 1 <= n)%nat) by (destruct H as (r & H & _ & H'); rewrite H in H'; len; lia).
    set (sep := if p =? prev then [38] else 32 :: concat (repeat [60; 62; 32] (Z.to_nat (p - prev - 1)))).
    assert (Ls : (length sep <= 1 + 3 * Z.to_nat (p - prev))%nat).
    { unfold sep. destruct (p =? prev); [cbn; lia|]. cbn [length]. rewrite blanks_len. lia. }
    assert (Ls' : (length sep <= 1 + 3 * Z.to_nat (p - prev) - (if (p =? prev)%Z then 0 else 3))%nat).
    { unfold sep. destruct (p =? prev) eqn:E; [cbn; lia|]. cbn [length]. rewrite blanks_len. lia. }
    assert (G : exists c1, (if p =? prev
                then do m <- (if (snd c =? 0)%nat then None else store (fst c) (snd c - 1) [38]); Some (m, snd c)
                else do j <- int (p - 1); blanks (Z.to_nat (j - prev)) c) = Some c1 /\ at_ c1 (s ++ sep) n).
    { unfold sep. destruct (p =? prev) eqn:E.
      - destruct (set_last c s 32 38 n H) as (m & E1 & H1).
        assert (Es : (snd c =? 0)%nat = false) by (apply Nat.eqb_neq; destruct H as (r & _ & H & _); rewrite H; len; lia).
        rewrite Es, E1. cbn [obind]. eexists. split; [reflexivity|exact H1].
      - unfold int. replace ((- 2 ^ 31 <=? p - 1) && (p - 1 <? 2 ^ 31)) with true by (symmetry; apply andb_true_iff; split; [apply Z.leb_le|apply Z.ltb_lt]; lia).
        cbn [obind]. destruct (blanks_ok (Z.to_nat (p - 1 - prev)) c _ n H) as (c1 & E1 & H1); [len; lia|].
        exists c1. split; [exact E1|]. rewrite <- app_assoc in H1. replace (p - 1 - prev) with (p - prev - 1) in H1 by lia. exact H1. }
    destruct G as (c1 & E1 & H1). fold sep. rewrite E1. cbn [obind].
    assert (Nw : (1 <= place_len (p, ts))%nat) by (unfold place_len; cbn [snd]; destruct ts; [congruence|cbn [fold_right]; lia]).
    destruct (terms_ok ts c1 _ n H1) as (c2 & E2 & H2); [try destruct first; len; lia|]. rewrite E2. cbn [obind].
    rewrite words_join, app_assoc in H2 by exact Nt.
    destruct (set_last c2 _ 124 32 n H2) as (m & E3 & H3).
    assert (Es : (snd c2 =? 0)%nat = false) by (apply Nat.eqb_neq; destruct H2 as (r & _ & H2 & _); rewrite H2; len; lia).
    rewrite Es, E3. cbn [obind].
    rewrite words_join in Lw by exact Nt. len.
    destruct (IH p (m, snd c2) ((s ++ sep) ++ join [124] ts) n) as (c4 & E4 & H4 & L4).
    { intros q Hq. apply HF. right. exact Hq. }
    { exact HA2. }
    { lia. }
    { exact H3. }
    { len. lia. }
    exists c4. split; [exact E4|]. split; [rewrite <- !app_assoc in *; exact H4|]. cbn [sum_len fold_right]. fold (sum_len ps). len. lia.
Qed.

Lemma places_clean : forall ps prev, (forall p, In p ps -> fine_pos p) -> clean (places prev ps).
Proof.
  assert (J : forall ts, Forall clean ts -> clean (join [124] ts)).
  { intros ts H. induction H as [|t ts Ht H IH]; [constructor|]. cbn [join]. destruct ts; [exact Ht|]. apply clean_app; [exact Ht|]. apply clean_app; [bytes|exact IH]. }
  intros ps. induction ps as [|[p ts] ps IH]; intros prev H; cbn [places]; [constructor|]. destruct (H (p, ts) (or_introl eq_refl)) as (_ & _ & C). cbn [snd] in C.
  apply clean_app; [|apply clean_app; [apply J, C|apply IH; intros q Hq; apply H; right; exact Hq]].
  destruct (p =? prev); [bytes|]. constructor; [discriminate|]. induction (Z.to_nat (p - prev - 1)) as [|k IHk]; cbn [repeat concat]; [constructor|]. apply clean_app; [bytes|exact IHk].
Qed.
Lemma join_clean : forall sep ts, clean sep -> Forall clean ts -> clean (join sep ts).
Proof. intros sep ts Hs H. induction H as [|t ts Ht H IH]; [constructor|]. cbn [join]. destruct ts; [exact Ht|]. apply clean_app; [exact Ht|]. apply clean_app; [exact Hs|exact IH]. Qed.
Lemma len_sum : forall l k, fold_right (fun p n => fold_right (fun t k => length t + 5 + k)%nat n (snd p)) k l = (sum_len l + k)%nat.
Proof.
  assert (G : forall z (ts : list str), fold_right (fun t k => length t + 5 + k)%nat z ts = (fold_right (fun t k => length t + 5 + k)%nat O ts + z)%nat).
  { intros z ts. induction ts as [|t ts IH]; cbn [fold_right]; [reflexivity|]. rewrite IH. lia. }
  intros l k. induction l as [|p l IH]; cbn [fold_right sum_len]; [reflexivity|]. fold (sum_len l). rewrite IH, G. unfold place_len. rewrite Nat.add_assoc. reflexivity.
Qed.
Lemma phq_ok : forall df f ps slop b, clean f -> Forall fine_pos ps -> word slop -> finite_b b ->
  gives (phq_to_s df f ps slop b) (match ps with [] => named df f ++ [34; 34] | _ => named df f ++ [34] ++ phrase ps ++ [34] ++ slop_s slop ++ tail b end).
Proof.
  intros df f ps slop b Hf HP Hs Hb. unfold phq_to_s, phrase. rewrite Forall_forall in HP. pose proof (named_clean df f Hf) as Cn. pose proof (named_len df f) as Ln.
  destruct ps as [|q0 qs].
  - unfold named, gives. destruct (same df f).
    + destruct (strfmt_ok [Lit [34; 34]]) as (m & E & E2); [repeat constructor; bytes|]. exists m. split; [exact E|exact E2].
    + destruct (strfmt_ok [Str f; Lit [58; 34; 34]]) as (m & E & E2); [constructor; [exact Hf|constructor; [bytes|constructor]]|].
      exists m. split; [exact E|]. rewrite E2. cbn [map concat piece_s]. rewrite <- app_assoc. reflexivity.
  - cbv zeta. rewrite len_sum.
    assert (HS : forall p, In p (sort (q0 :: qs)) -> fine_pos p) by (intros p H; apply HP; apply (proj1 (sort_In _ _)); exact H).
    pose proof (sort_asc (q0 :: qs)) as HA. pose proof (sort_nonempty q0 qs) as HN. destruct (sort (q0 :: qs)) as [|[p ts] rest] eqn:ES; [congruence|]. clear HN HP ES q0 qs.
    cbn [hd fst snd]. destruct (HS (p, ts) (or_introl eq_refl)) as (Hr & Nt & Ct). cbn [fst snd] in Hr, Nt, Ct.
    assert (ET : fst (last ((p, ts) :: rest) (0, [])) = top p rest).
    { change (fst (last ((p, ts) :: rest) (0, []))) with (top 0 ((p, ts) :: rest)). rewrite top_cons. reflexivity. }
    rewrite ET. assert (HA2 : ascending ((p, []) :: rest)) by (inversion HA; subst; constructor; assumption).
    pose proof (asc_top _ _ HA2) as Ht. cbn [fst] in Ht.
    assert (HT : top p rest <= 2 ^ 28).
    { unfold top. destruct rest as [|r rest]; [cbn; lia|]. assert (In (last (r :: rest) (p, [])) ((p, ts) :: r :: rest)).
      { right. clear. revert r. induction rest as [|x rest IH]; intros r; [left; reflexivity|]. right. apply IH. }
      apply HS in H. destruct H as (H & _). lia. }
    unfold int at 1. replace ((- 2 ^ 31 <=? top p rest - p) && (top p rest - p <? 2 ^ 31)) with true by (symmetry; apply andb_true_iff; split; [apply Z.leb_le|apply Z.ltb_lt]; lia). cbn [obind].
    unfold int at 1. match goal with |- context [if ?g then Some (3 * _) else None] => replace g with true by (symmetry; apply andb_true_iff; split; [apply Z.leb_le|apply Z.ltb_lt]; lia) end. cbn [obind].
    unfold int at 1. match goal with |- context [if ?g then Some (100 + _) else None] => replace g with true by (symmetry; apply andb_true_iff; split; [apply Z.leb_le|apply Z.ltb_lt]; lia) end. cbn [obind].
    cbn [sum_len fold_right]. fold (sum_len rest).
    match goal with |- context [alloc ?n] => set (N := n) end.
    assert (HN : N = (place_len (p, ts) + sum_len rest + (length f + 1) + 100 + 3 * Z.to_nat (top p rest - p))%nat) by (unfold N; lia).
    clearbody N. destruct (named_app df f N) as (c1 & E1 & H1); [lia|]. rewrite E1. cbn [obind].
    destruct (app_ok c1 _ _ [34] H1) as (c2 & E2 & H2); [len; lia|]. rewrite E2. cbn [obind].
    unfold int at 1. match goal with |- context [if ?g then Some (p - 1) else None] => replace g with true by (symmetry; apply andb_true_iff; split; [apply Z.leb_le|apply Z.ltb_lt]; lia) end. cbn [obind].
    cbn [ph_loop]. replace (p =? p - 1) with false by (symmetry; apply Z.eqb_neq; lia).
    unfold int at 1. match goal with |- context [if ?g then Some (p - 1) else None] => replace g with true by (symmetry; apply andb_true_iff; split; [apply Z.leb_le|apply Z.ltb_lt]; lia) end. cbn [obind].
    replace (p - 1 - (p - 1)) with 0 by lia. cbn [Z.to_nat blanks obind].
    pose proof (words_place (p, ts)) as Lw. cbn [snd] in Lw.
    destruct (terms_ok ts c2 _ N H2) as (c3 & E3 & H3); [len; lia|]. rewrite E3. cbn [obind].
    rewrite words_join in Lw by exact Nt. rewrite words_join, app_assoc in H3 by exact Nt.
    destruct (set_last c3 _ 124 32 N H3) as (m & E4 & H4).
    assert (Es : (snd c3 =? 0)%nat = false) by (apply Nat.eqb_neq; destruct H3 as (r & _ & H3 & _); rewrite H3; len; lia).
    rewrite Es, E4. cbn [obind]. len.
    assert (Np : (5 * length ts <= place_len (p, ts) /\ 1 <= length ts)%nat).
    { clear - Nt. unfold place_len. cbn [snd]. destruct ts as [|t ts]; [congruence|]. split; [|cbn [length]; lia]. clear Nt. revert t. induction ts as [|t' ts IH]; intros t; cbn [fold_right length] in *; [lia|]. specialize (IH t'). lia. }
    destruct (ph_loop_ok rest p (m, snd c3) ((named df f ++ [34]) ++ join [124] ts) N) as (c5 & E5 & H5 & L5).
    { intros q Hq. apply HS. right. exact Hq. }
    { exact HA2. }
    { lia. }
    { exact H4. }
    { len. lia. }
    rewrite E5. cbn [obind].
    assert (Es5 : (snd c5 =? 0)%nat = false) by (apply Nat.eqb_neq; destruct H5 as (r & _ & H5 & _); rewrite H5; len; lia). rewrite Es5.
    set (body := ((named df f ++ [34]) ++ join [124] ts) ++ places p rest) in *.
    assert (H5' : at_ c5 (body ++ [32]) N) by (unfold body; rewrite <- !app_assoc in *; exact H5). clear H5.
    assert (Lb : (length body + 5 + 60 <= N)%nat) by (unfold body; len; lia).
    assert (Ec : nth_error (fst c5) (snd c5 - 1) = Some (Some 32)).
    { destruct H5' as (r & Hm & Hi & _). rewrite Hm, Hi, map_app, <- app_assoc. len. replace (length body + 1 - 1)%nat with (length (map (@Some Z) body)) by (rewrite map_length; lia).
      rewrite nth_error_app2 by lia. rewrite Nat.sub_diag. reflexivity. }
    rewrite Ec. cbn [obind]. rewrite Z.eqb_refl.
    assert (H6 : at_ (fst c5, (snd c5 - 1)%nat) body N).
    { destruct H5' as (r & Hm & Hi & Hl). exists (Some 32 :: r). cbn [fst snd]. split; [rewrite Hm, map_app, <- app_assoc; reflexivity|]. split; [rewrite Hi; len; lia|exact Hl]. }
    destruct (app_ok _ _ _ [34] H6) as (c7 & E7 & H7); [len; lia|]. rewrite E7. cbn [obind].
    destruct (nul_ok c7 _ _ H7) as (c8 & E8 & H8); [len; lia|]. rewrite E8. cbn [obind].
    assert (CB : clean (body ++ [34])).
    { apply clean_app; [|bytes]. unfold body. apply clean_app; [|apply places_clean; intros q Hq; apply HS; right; exact Hq].
      apply clean_app; [|apply join_clean; [bytes|exact Ct]]. apply clean_app; [exact Cn|bytes]. }
    unfold slop_s, gives. destruct (slop =? 0); cbn [obind].
    + replace (named df f ++ [34] ++ (join [124] ts ++ places p rest) ++ [34] ++ [] ++ tail b) with ((body ++ [34]) ++ tail b) by (unfold body; rewrite <- !app_assoc; reflexivity).
      eapply boosted_ended; [exact H8|exact Hb|len; lia|exact CB].
    + pose proof (dec_len slop) as Ld.
      destruct (print_ok c8 _ _ (126 :: dec slop) (ended_at _ _ _ H8)) as (c9 & E9 & H9); [len; cbn [length]; lia|]. rewrite E9. cbn [obind].
      replace (named df f ++ [34] ++ (join [124] ts ++ places p rest) ++ [34] ++ (126 :: dec slop) ++ tail b) with (((body ++ [34]) ++ 126 :: dec slop) ++ tail b) by (unfold body; rewrite <- !app_assoc; reflexivity).
      eapply boosted_ended; [exact H9|exact Hb|len; cbn [length]; lia|]. apply clean_app; [exact CB|]. constructor; [discriminate|apply dec_clean].
Qed.
