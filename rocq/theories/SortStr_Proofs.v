From Coq Require Import String.
From Verif Require Import Util Codec_Model Seg_Model Seg_Proofs Commit_Proofs SortStr_Model SortStr_Spec.
Open Scope Z_scope.

Lemma is_space_ok c : is_space c = true <-> blank c.
Proof. unfold is_space, blank. rewrite orb_true_iff, andb_true_iff. lia. Qed.
Lemma is_space_no c : is_space c = false <-> ~ blank c.
Proof. rewrite <- is_space_ok, not_true_iff_false. tauto. Qed.
Lemma names_ok n k : names n k -> key_of n = k.
Proof.
  unfold key_of. intros [| |m H1 H2]; try reflexivity. destruct (beqb (str "SCORE") m) eqn:E1; [apply beqb_eq in E1; congruence|]. destruct (beqb (str "DOC_ID") m) eqn:E2; [apply beqb_eq in E2; congruence|]. reflexivity.
Qed.
Lemma names_any n : names n (key_of n).
Proof.
  unfold key_of. destruct (beqb (str "SCORE") n) eqn:E1; [apply beqb_eq in E1; subst; constructor|]. destruct (beqb (str "DOC_ID") n) eqn:E2; [apply beqb_eq in E2; subst; constructor|].
  constructor; intros ->; rewrite beqb_refl in *; discriminate.
Qed.
(* ---------- trimming *)
Fixpoint ltrim (x : list Z) : list Z := match x with [] => [] | c :: t => if is_space c || (c =? 58) then ltrim t else x end.
Fixpoint dropsp (x : list Z) : list Z := match x with [] => [] | c :: t => if is_space c then dropsp t else x end.
Definition rtrim (x : list Z) : list Z := rev (dropsp (rev x)).
Lemma ltrim_split x : exists p, x = p ++ ltrim x.
Proof. induction x as [|c x (p & IH)]; cbn; [exists []; auto|]. destruct (_ || _); [|exists []; auto]. exists (c :: p). cbn. f_equal. auto. Qed.
Lemma ltrim_head x : ltrim x = [] \/ exists a t, ltrim x = a :: t /\ is_space a || (a =? 58) = false.
Proof. induction x as [|c x IH]; cbn; auto. destruct (_ || _) eqn:E; auto. right. exists c, x. auto. Qed.
Lemma rtrim_snoc x c : rtrim (x ++ [c]) = if is_space c then rtrim x else x ++ [c].
Proof. unfold rtrim. rewrite rev_app_distr. cbn. destruct (is_space c); auto. cbn. rewrite rev_involutive. auto. Qed.
Lemma rtrim_split x : exists p, x = rtrim x ++ p.
Proof.
  induction x as [|c x (p & IH)] using rev_ind; [exists []; auto|]. rewrite rtrim_snoc. destruct (is_space c); [|exists []; rewrite app_nil_r; auto].
  exists (p ++ [c]). rewrite app_assoc, <- IH. auto.
Qed.
Lemma rtrim_head a t : is_space a = false -> exists u, rtrim (a :: t) = a :: u.
Proof.
  intros Ha. induction t as [|c t (u & IH)] using rev_ind; [unfold rtrim; cbn; rewrite Ha; cbn; eauto|].
  rewrite app_comm_cons, rtrim_snoc. destruct (is_space c); [eauto|]. cbn. eauto.
Qed.
Lemma nth_mid {A} (p : list A) c r : nth_error (p ++ c :: r) (length p) = Some c.
Proof. rewrite nth_error_app2 by auto. rewrite Nat.sub_diag. auto. Qed.

Lemma front_ok x : forall pfx c r fuel, (length x < fuel)%nat ->
  skip_front (pfx ++ x ++ c :: r) fuel (length pfx) (length pfx + length x) = Some (length pfx + (length x - length (ltrim x)))%nat.
Proof.
  induction x as [|a x IH]; intros pfx c r fuel Hf; (destruct fuel as [|fuel]; [lia|]); cbn [skip_front].
  - cbn [app]. rewrite nth_mid. cbn [obind length ltrim]. replace (length pfx <? length pfx + 0)%nat with false by (symmetry; apply Nat.ltb_ge; lia). rewrite andb_false_r. f_equal. lia.
  - cbn [app]. rewrite nth_mid. cbn [obind length ltrim]. replace (length pfx <? length pfx + S (length x))%nat with true by (symmetry; apply Nat.ltb_lt; lia). rewrite andb_true_r.
    destruct (is_space a || (a =? 58)).
    + specialize (IH (pfx ++ [a]) c r fuel ltac:(cbn in Hf; lia)). rewrite <- app_assoc in IH. cbn [app] in IH. rewrite app_length in IH. cbn [length] in IH.
      replace (length pfx + 1)%nat with (S (length pfx)) in IH by lia. replace (length pfx + S (length x))%nat with (S (length pfx) + length x)%nat by lia. rewrite IH. f_equal.
      destruct (ltrim_split x) as (p & E). apply (f_equal (@length Z)) in E. rewrite app_length in E. lia.
    + f_equal. cbn [length]. lia.
Qed.
Lemma back_ok y : forall pfx r, pfx <> [] \/ rtrim y <> [] ->
  skip_back (pfx ++ y ++ r) (length pfx) (length pfx + length y) = Some (length pfx + length (rtrim y))%nat.
Proof.
  induction y as [|a y IH] using rev_ind; intros pfx r Hn.
  - destruct Hn as [Hn|Hn]; [|contradiction]. cbn [app length]. rewrite Nat.add_0_r. destruct pfx as [|p0 pfx0] using rev_ind; [contradiction|]. clear IHpfx0.
    rewrite app_length. cbn [length]. rewrite Nat.add_1_r. cbn [skip_back]. rewrite <- app_assoc. cbn [app]. rewrite nth_mid. cbn [obind].
    rewrite Nat.ltb_irrefl, andb_false_r. cbn. f_equal. lia.
  - rewrite app_length. cbn [length]. replace (length pfx + (length y + 1))%nat with (S (length pfx + length y)) by lia. cbn [skip_back].
    replace (pfx ++ (y ++ [a]) ++ r) with ((pfx ++ y) ++ a :: r) by (rewrite <- !app_assoc; auto). rewrite <- app_length, nth_mid. cbn [obind]. rewrite rtrim_snoc, app_length.
    replace (length pfx <? S (length pfx + length y))%nat with true by (symmetry; apply Nat.ltb_lt; lia). rewrite andb_true_r. destruct (is_space a) eqn:Ea.
    + replace ((pfx ++ y) ++ a :: r) with (pfx ++ y ++ a :: r) by (rewrite <- app_assoc; auto). apply IH. destruct Hn as [Hn|Hn]; auto. rewrite rtrim_snoc, Ea in Hn. auto.
    + rewrite app_length. cbn [length]. f_equal. lia.
Qed.
Lemma poke_ok p c r v : poke (p ++ c :: r) (length p) v = Some (p ++ v :: r).
Proof.
  unfold poke. rewrite app_length. cbn [length]. replace (length p <? length p + S (length r))%nat with true by (symmetry; apply Nat.ltb_lt; lia).
  rewrite firstn_app, firstn_all, Nat.sub_diag. cbn [firstn]. rewrite app_nil_r. replace (S (length p)) with (length (p ++ [c])) by (rewrite app_length; cbn; lia).
  replace (p ++ c :: r) with ((p ++ [c]) ++ r) by (rewrite <- app_assoc; auto). rewrite skipn_app, skipn_all, Nat.sub_diag. auto.
Qed.
Lemma cstr_ok n r : Forall (fun c => c <> 0) n -> cstr_of (n ++ 0 :: r) = Some n.
Proof. induction n as [|c n IH]; intros F; cbn; auto. inversion F; subst. rewrite (proj2 (Z.eqb_neq c 0)) by auto. rewrite IH by auto. auto. Qed.
Lemma skipn_pfx {A} (p r : list A) : skipn (length p) (p ++ r) = r.
Proof. rewrite skipn_app, skipn_all, Nat.sub_diag. auto. Qed.
Lemma plain_nz x : plain x -> Forall (fun c => c <> 0) x.
Proof. intros H. eapply Forall_impl; [|exact H]. cbn. tauto. Qed.

(* ---------- one item, as a function *)
Definition item (x : list Z) : key * bool :=
  let y := rtrim (ltrim x) in
  if (4 <? length y)%nat && beqb (str "DESC") (skipn (length y - 4) y) then (key_of (rtrim (firstn (length y - 4) y)), true) else (key_of y, false).
Lemma item_ok pfx x c r : plain x -> pfx <> [] \/ x <> [] ->
  exists b, parse_item (pfx ++ x ++ c :: r) (length pfx) (length pfx + length x) = Some (b, item x) /\ exists q, length q = S (length pfx + length x) /\ b = q ++ r.
Proof.
  intros Hp Hn. unfold parse_item. replace (length pfx + length x - length pfx)%nat with (length x) by lia. rewrite front_ok by lia. cbn [obind].
  destruct (ltrim_split x) as (p & Ep). set (y := ltrim x) in *. assert (Lp : (length x = length p + length y)%nat) by (rewrite Ep at 1; apply app_length).
  set (P := pfx ++ p). assert (LP : length P = (length pfx + (length x - length y))%nat) by (unfold P; rewrite app_length; lia).
  replace (pfx ++ x ++ c :: r) with (P ++ y ++ c :: r) by (unfold P; rewrite Ep at 1; rewrite <- !app_assoc; auto). rewrite <- LP.
  replace (length pfx + length x)%nat with (length P + length y)%nat by lia.
  assert (Hy : P <> [] \/ exists a t, y = a :: t /\ is_space a = false).
  { destruct (ltrim_head x) as [E|(a & t & E & Ea)]; fold y in E.
    - left. unfold P. destruct Hn as [Hn|Hn]; [destruct pfx; [contradiction|discriminate]|]. rewrite E, app_nil_r in Ep. subst p. destruct pfx; [auto|discriminate].
    - right. exists a, t. split; auto. apply orb_false_iff in Ea. tauto. }
  assert (Hry : P <> [] \/ rtrim y <> []).
  { destruct Hy as [|(a & t & -> & Ea)]; auto. right. destruct (rtrim_head a t Ea) as (u & ->). discriminate. }
  rewrite back_ok by auto. cbn [obind]. destruct (rtrim_split y) as (w & Ew). set (z := rtrim y) in *.
  assert (Py : plain y) by (unfold plain in *; rewrite Ep in Hp; apply Forall_app in Hp; tauto). assert (Pz : plain z) by (unfold plain in *; rewrite Ew in Py; apply Forall_app in Py; tauto).
  assert (H0 : exists c1 r1, w ++ c :: r = c1 :: r1 /\ exists t, r1 = t ++ r /\ length t = length w).
  { destruct w as [|w0 w]; [exists c, r; split; auto; exists []; auto|]. exists w0, (w ++ c :: r). split; auto. exists (w ++ [c]). rewrite <- app_assoc. split; auto. rewrite app_length. cbn. lia. }
  destruct H0 as (c1 & r1 & E1 & t1 & E2 & L1). replace (P ++ y ++ c :: r) with ((P ++ z) ++ c1 :: r1) by (rewrite <- app_assoc, <- E1, (app_assoc z), <- Ew; auto).
  rewrite <- app_length, poke_ok. cbn [obind]. rewrite app_length. unfold item. fold y. fold z.
  replace (length P + 4 <? length P + length z)%nat with (4 <? length z)%nat by (destruct (Nat.ltb_spec 4 (length z)), (Nat.ltb_spec (length P + 4) (length P + length z)); auto; lia).
  assert (Lz : (length y = length z + length w)%nat) by (rewrite Ew at 1; apply app_length).
  assert (Plainly : exists b, (do b <- poke ((P ++ z) ++ 0 :: r1) (length P + length z) 0; do n <- cstr b (length P); Some (b, (key_of n, false))) = Some (b, (key_of z, false)) /\
    exists q, length q = S (length P + length y) /\ b = q ++ r).
  { rewrite <- app_length, poke_ok. cbn [obind]. unfold cstr. rewrite <- app_assoc, skipn_pfx, cstr_ok by (apply plain_nz; auto). cbn [obind]. eexists. split; [reflexivity|].
    exists (P ++ z ++ 0 :: t1). split; [rewrite !app_length; cbn [length]; lia|]. subst r1. rewrite <- !app_assoc. auto. }
  destruct (Nat.ltb_spec 4 (length z)) as [L4|L4]; cbn [andb].
  - set (k := (length z - 4)%nat). assert (Ez : z = firstn k z ++ skipn k z) by (symmetry; apply firstn_skipn). set (z1 := firstn k z) in *. set (z2 := skipn k z) in *.
    assert (Lz1 : length z1 = k) by (unfold z1; rewrite firstn_length; lia). assert (Lz2 : length z2 = 4%nat) by (unfold z2; rewrite skipn_length; lia).
    unfold cstr at 1. replace (length P + length z - 4)%nat with (length (P ++ z1)) by (rewrite app_length; lia).
    assert (EQ : (P ++ z1) ++ z2 ++ 0 :: r1 = (P ++ z) ++ 0 :: r1) by (rewrite <- !app_assoc, (app_assoc z1), <- Ez; auto). replace (skipn (length (P ++ z1)) ((P ++ z) ++ 0 :: r1)) with (z2 ++ 0 :: r1) by (rewrite <- EQ, skipn_pfx; auto). rewrite cstr_ok.
    2:{ apply plain_nz. unfold plain in *. rewrite Ez in Pz. apply Forall_app in Pz. tauto. }
    cbn [obind]. destruct (beqb (str "DESC") z2) eqn:Ed; [|exact Plainly].
    replace ((P ++ z) ++ 0 :: r1) with (P ++ z1 ++ z2 ++ 0 :: r1) by (rewrite <- !app_assoc, (app_assoc z1), <- Ez; auto). rewrite app_length. rewrite back_ok.
    2:{ destruct Hy as [|(a & t & Ey & Ea)]; auto. right. destruct (rtrim_head a t Ea) as (u & Eu). assert (Ezz : z = a :: u) by (unfold z; rewrite Ey; exact Eu).
        destruct z1 as [|a1 t1'] eqn:E3; [cbn in Lz1; lia|]. rewrite Ez in Ezz. cbn in Ezz. injection Ezz as -> _. destruct (rtrim_head a t1' Ea) as (u' & ->). discriminate. }
    cbn [obind fst snd]. destruct (rtrim_split z1) as (w1 & Ew1). set (n := rtrim z1) in *.
    assert (H1 : exists c2 r2, w1 ++ z2 ++ 0 :: r1 = c2 :: r2 /\ exists t, r2 = t ++ r1 /\ length t = (length w1 + 4)%nat).
    { destruct w1 as [|w0 w1].
      - destruct z2 as [|a0 z2]; [cbn in Lz2; lia|]. exists a0, (z2 ++ 0 :: r1). split; auto. exists (z2 ++ [0]). rewrite <- app_assoc. split; auto. rewrite app_length. cbn in *. lia.
      - exists w0, (w1 ++ z2 ++ 0 :: r1). split; auto. exists (w1 ++ z2 ++ [0]). rewrite <- !app_assoc. split; auto. rewrite !app_length. cbn. lia. }
    destruct H1 as (c2 & r2 & F1 & t2 & F2 & L2). replace (P ++ z1 ++ z2 ++ 0 :: r1) with ((P ++ n) ++ c2 :: r2) by (rewrite <- app_assoc, <- F1, (app_assoc n), <- Ew1; auto).
    rewrite <- app_length, poke_ok. cbn [obind]. unfold cstr. rewrite <- app_assoc, skipn_pfx, cstr_ok.
    2:{ apply plain_nz. unfold plain in *. rewrite Ez in Pz. apply Forall_app in Pz. destruct Pz as [Pz _]. rewrite Ew1 in Pz. apply Forall_app in Pz. tauto. }
    cbn [obind]. eexists. split; [reflexivity|]. exists (P ++ n ++ 0 :: t2 ++ t1). assert (length z1 = length n + length w1)%nat by (rewrite Ew1 at 1; apply app_length).
    split; [rewrite !app_length; cbn [length]; rewrite app_length; lia|]. subst r2 r1. rewrite <- !app_assoc. cbn [app]. rewrite <- !app_assoc. auto.
  - exact Plainly.
Qed.

(* ---------- the string *)
Fixpoint split_commas (x : list Z) : list (list Z) :=
  match x with
  | [] => [[]]
  | c :: t => if c =? 44 then [] :: split_commas t else match split_commas t with h :: r => (c :: h) :: r | [] => [[c]] end
  end.
(* the items: an empty one at the end does not count *)
Fixpoint items (xs : list (list Z)) : list (list Z) := match xs with [] => [] | [x] => match x with [] => [] | _ => [x] end | x :: t => x :: items t end.
Lemma split_join x : exists h r, split_commas x = h :: r.
Proof. destruct x as [|c x]; cbn; eauto. destruct (c =? 44); eauto. destruct (split_commas x); eauto. Qed.
Lemma comma_none x r : plain x -> comma_in (x ++ 0 :: r) = Some None.
Proof. induction x as [|c x IH]; intros F; cbn; auto. inversion F as [|? ? [Fa Fb] Fc]; subst. rewrite (proj2 (Z.eqb_neq c 44)), (proj2 (Z.eqb_neq c 0)) by auto. rewrite IH by auto. auto. Qed.
Lemma comma_some x r : plain x -> comma_in (x ++ 44 :: r) = Some (Some (length x)).
Proof. induction x as [|c x IH]; intros F; cbn; auto. inversion F as [|? ? [Fa Fb] Fc]; subst. rewrite (proj2 (Z.eqb_neq c 44)), (proj2 (Z.eqb_neq c 0)) by auto. rewrite IH by auto. auto. Qed.
Lemma loop_ok xs : Forall plain xs -> xs <> [] -> forall pfx fuel, (length (join xs) < fuel)%nat -> pfx <> [] \/ hd [] xs <> [] \/ xs = [[]] ->
  parse_loop fuel (pfx ++ join xs ++ [0]) (length pfx) (length pfx + length (join xs)) = Some (map item (items xs)).
Proof.
  intros F. induction F as [|x xs Hx F IH]; intros Hne pfx fuel Hf Hp; [contradiction|]. clear Hne. destruct fuel as [|fuel]; [lia|]. cbn [parse_loop].
  destruct xs as [|x2 xs].
  - cbn [join items hd] in *. destruct x as [|a x0] eqn:Ex.
    + cbn [length]. replace (length pfx <? length pfx + 0)%nat with false by (symmetry; apply Nat.ltb_ge; lia). auto.
    + rewrite <- Ex in *. assert (Lx : (0 < length x)%nat) by (rewrite Ex; cbn; lia). replace (length pfx <? length pfx + length x)%nat with true by (symmetry; apply Nat.ltb_lt; lia).
      rewrite skipn_pfx, comma_none by auto. cbn [obind]. destruct (item_ok pfx x 0 [] Hx ltac:(right; rewrite Ex; discriminate)) as (b & E & q & Lq & Eb). rewrite E. cbn [obind fst snd].
      replace (match x with [] => [] | _ :: _ => [x] end) with [x] by (rewrite Ex; auto).
      destruct fuel as [|fuel]; [lia|]. cbn [parse_loop]. replace (S (length pfx + length x) <? length pfx + length x)%nat with false by (symmetry; apply Nat.ltb_ge; lia). auto.
  - change (join (x :: x2 :: xs)) with (x ++ 44 :: join (x2 :: xs)) in *. change (items (x :: x2 :: xs)) with (x :: items (x2 :: xs)). set (J := join (x2 :: xs)) in *.
    rewrite app_length in *. cbn [length] in *. replace (length pfx <? length pfx + (length x + S (length J)))%nat with true by (symmetry; apply Nat.ltb_lt; lia).
    rewrite skipn_pfx. rewrite <- app_assoc. cbn [app]. rewrite comma_some by auto. cbn [obind].
    assert (Hpx : pfx <> [] \/ x <> []) by (destruct Hp as [|[Hp|Hp]]; auto; discriminate).
    destruct (item_ok pfx x 44 (J ++ [0]) Hx Hpx) as (b & E & q & Lq & Eb). rewrite E. cbn [obind fst snd]. rewrite Eb, <- Lq.
    replace (length pfx + (length x + S (length J)))%nat with (length q + length J)%nat by lia. rewrite IH; [auto|discriminate|lia|]. left. destruct q; [discriminate|discriminate].
Qed.
Lemma parse_join xs : Forall plain xs -> xs <> [] -> hd [] xs <> [] \/ xs = [[]] -> parse_sort_str (join xs) = Some (map item (items xs)).
Proof. intros F Hne Hp. unfold parse_sort_str. apply (loop_ok xs F Hne []); auto. Qed.
Lemma split_plain x : Forall (fun c => c <> 0) x -> Forall plain (split_commas x) /\ join (split_commas x) = x.
Proof.
  induction 1 as [|c x Hc F [IH1 IH2]]; cbn [split_commas]; [split; [repeat constructor|auto]|]. destruct (split_join x) as (h & r & E). rewrite E in *.
  destruct (Z.eqb_spec c 44) as [->|H4].
  - split; [constructor; auto; constructor|]. change (join ([] :: h :: r)) with ([] ++ 44 :: join (h :: r)). rewrite IH2. auto.
  - inversion IH1 as [|? ? Ih Ir]; subst. split; [constructor; auto; constructor; auto|]. destruct r as [|h2 r]; cbn in *; auto.
Qed.
Lemma comma_first y : parse_sort_str (44 :: y) = None.
Proof. unfold parse_sort_str. cbn [length app parse_loop]. cbn. auto. Qed.
Lemma parse_safe x : Forall (fun c => c <> 0) x -> (parse_sort_str x = None <-> exists y, x = 44 :: y).
Proof.
  intros F. split; [|intros (y & ->); apply comma_first]. intros E. destruct (split_plain x F) as [F1 F2]. destruct x as [|c x]; [discriminate|].
  destruct (Z.eq_dec c 44) as [->|Hc]; [eauto|]. exfalso. rewrite <- F2 in E. rewrite parse_join in E; auto; [discriminate| |].
  - destruct (split_join (c :: x)) as (h & r & Eh). rewrite Eh. discriminate.
  - left. cbn [split_commas]. rewrite (proj2 (Z.eqb_neq c 44)) by auto. destruct (split_join x) as (h & r & Eh). rewrite Eh. discriminate.
Qed.

(* ---------- items as they are written *)
Lemma ltrim_pre pre n : Forall (fun c => blank c \/ c = 58) pre -> (exists a t, n = a :: t /\ ~ blank a /\ a <> 58) -> forall r, ltrim (pre ++ n ++ r) = n ++ r.
Proof.
  intros F (a & t & -> & Ha & Hc) r. induction F as [|c pre Hx F IH]; cbn.
  - rewrite (proj2 (is_space_no a) Ha), (proj2 (Z.eqb_neq a 58)) by auto. auto.
  - destruct Hx as [Hx | ->]; [rewrite (proj2 (is_space_ok c) Hx); exact IH|]. rewrite Z.eqb_refl, orb_true_r. exact IH.
Qed.
Lemma rtrim_post n post : spaces post -> rtrim (n ++ post) = rtrim n.
Proof.
  intros F. induction post as [|c post IH] using rev_ind; [rewrite app_nil_r; auto|]. apply Forall_app in F. destruct F as [F1 F2]. inversion F2; subst.
  rewrite app_assoc, rtrim_snoc. rewrite (proj2 (is_space_ok c)) by auto. auto.
Qed.
Lemma rtrim_name t a : ~ blank a -> rtrim (t ++ [a]) = t ++ [a].
Proof. intros E. rewrite rtrim_snoc, (proj2 (is_space_no a) E). auto. Qed.
Lemma written_item x d : written x d -> item x = d.
Proof.
  intros [pre n post k F (Np & Nh & t & a & En & Ea) Fp Hd Hk|pre n mid post k F (Np & Nh & t & a & En & Ea) Fm Fp Hk]; unfold item; rewrite <- (names_ok n k Hk).
  - rewrite ltrim_pre, rtrim_post by auto. replace (rtrim n) with n by (rewrite En; symmetry; apply rtrim_name; auto).
    destruct (Nat.ltb_spec 4 (length n)) as [L|L]; cbn [andb]; auto. destruct (beqb _ _) eqn:E; auto. apply beqb_eq in E. exfalso.
    apply (Hd (firstn (length n - 4) n)); [|rewrite E; symmetry; apply firstn_skipn]. intros Hn. apply (f_equal (@length Z)) in Hn. rewrite firstn_length in Hn. cbn in Hn. lia.
  - rewrite ltrim_pre by auto. replace (n ++ mid ++ str "DESC" ++ post) with ((n ++ mid ++ str "DESC") ++ post) by (rewrite <- !app_assoc; auto). rewrite rtrim_post by auto.
    assert (E1 : rtrim (n ++ mid ++ str "DESC") = n ++ mid ++ str "DESC").
    { change (str "DESC") with ([68; 69; 83] ++ [67]). rewrite !app_assoc. apply rtrim_name. unfold blank. lia. }
    rewrite E1. assert (Ln : (0 < length n)%nat) by (destruct Nh as (b & u & -> & _); cbn; lia).
    assert (L4 : length (str "DESC") = 4%nat) by reflexivity.
    replace (4 <? length (n ++ mid ++ str "DESC"))%nat with true by (symmetry; apply Nat.ltb_lt; rewrite !app_length, L4; lia).
    replace (length (n ++ mid ++ str "DESC") - 4)%nat with (length (n ++ mid)) by (rewrite !app_length, L4; lia). rewrite app_assoc, skipn_pfx, beqb_refl. cbn [andb].
    rewrite firstn_app, firstn_all, Nat.sub_diag. cbn [firstn]. rewrite app_nil_r. rewrite rtrim_post by auto. rewrite En at 1. rewrite rtrim_name by auto. rewrite <- En. auto.
Qed.
Lemma space_plain c : blank c \/ c = 58 -> c <> 44 /\ c <> 0.
Proof. unfold blank. lia. Qed.
Lemma written_plain x d : written x d -> plain x /\ x <> [].
Proof.
  assert (S1 : forall pre, Forall (fun c => blank c \/ c = 58) pre -> plain pre) by (intros pre F; eapply Forall_impl; [|exact F]; cbn; intros; apply space_plain; auto).
  assert (S2 : forall p, spaces p -> plain p) by (intros p F; apply S1; eapply Forall_impl; [|exact F]; cbn; auto).
  intros [pre n post k F (Np & (a & t & En & _) & _) Fp Hd _|pre n mid post k F (Np & (a & t & En & _) & _) Fm Fp _]; split.
  - unfold plain. rewrite !Forall_app. repeat split; [exact (S1 _ F)|exact Np|exact (S2 _ Fp)].
  - rewrite En. destruct pre; discriminate.
  - unfold plain. rewrite !Forall_app. repeat split; [exact (S1 _ F)|exact Np|exact (S2 _ Fm)| |exact (S2 _ Fp)]. repeat constructor; discriminate.
  - rewrite En. destruct pre; discriminate.
Qed.
Lemma items_all xs : Forall (fun x => x <> []) xs -> items xs = xs.
Proof. induction 1 as [|x xs Hx F IH]; auto. destruct xs; cbn in *; [destruct x; [contradiction|auto]|]. rewrite IH. auto. Qed.
Lemma items_comma xs : xs <> [] -> Forall (fun x => x <> []) xs -> items (xs ++ [[]]) = xs.
Proof.
  intros Hne F. induction F as [|x xs Hx F IH]; [contradiction|]. destruct xs as [|y xs]; [auto|]. cbn [app] in *. change (items (x :: y :: xs ++ [[]])) with (x :: items (y :: xs ++ [[]])). rewrite IH; auto. discriminate.
Qed.
Lemma join_comma xs : xs <> [] -> join (xs ++ [[]]) = join xs ++ [44].
Proof.
  intros Hne. induction xs as [|x xs IH]; [contradiction|]. destruct xs as [|y xs]; [cbn; auto|]. cbn [app] in *. change (join (x :: y :: xs ++ [[]])) with (x ++ 44 :: join (y :: xs ++ [[]])).
  change (join (x :: y :: xs)) with (x ++ 44 :: join (y :: xs)). rewrite IH by discriminate. rewrite <- app_assoc. auto.
Qed.
Theorem parse_written xs ds : Forall2 written xs ds -> xs <> [] -> parse_sort_str (join xs) = Some ds /\ parse_sort_str (join xs ++ [44]) = Some ds.
Proof.
  intros F Hne.
  assert (A : Forall plain xs /\ Forall (fun x => x <> []) xs /\ map item xs = ds).
  { clear Hne. induction F as [|x d xs ds W F (I1 & I2 & I3)]; [repeat split; auto|]. destruct (written_plain x d W). cbn. rewrite (written_item x d W), I3. auto. }
  destruct A as (A1 & A2 & A3). split.
  - rewrite parse_join; [rewrite items_all, A3 by auto; auto|auto|auto|]. left. destruct A2; [contradiction|cbn; auto].
  - rewrite <- join_comma by auto. rewrite parse_join.
    + rewrite items_comma, A3 by auto. auto.
    + apply Forall_app. split; auto. repeat constructor.
    + destruct xs; discriminate.
    + left. destruct A2; [contradiction|]. cbn. auto.
Qed.

(* ---------- Sort.new *)
Definition look (h : heap) (p : nat) : option (key * bool) := option_map (fun f => (sf_key f, sf_rev f)) (nth_error h p).
Lemma shows_look h ps : shows h ps = all_some (map (look h) ps).
Proof. reflexivity. Qed.
Lemma all_some_app {A} (a b : list (option A)) x y : all_some a = Some x -> all_some b = Some y -> all_some (a ++ b) = Some (x ++ y).
Proof.
  revert x. induction a as [|o a IH]; intros x E F; cbn in *; [apply some_inj in E; subst x; auto|]. destruct o as [z|]; [|discriminate]. cbn [obind] in *.
  destruct (all_some a) as [r|] eqn:Ea; [|discriminate]. cbn [obind] in *. apply some_inj in E. subst x. rewrite (IH r eq_refl F). auto.
Qed.
Lemma shows_app h a b x y : shows h a = Some x -> shows h b = Some y -> shows h (a ++ b) = Some (x ++ y).
Proof. rewrite !shows_look, map_app. apply all_some_app. Qed.
Lemma shows_keep h h' ps x : (forall p f, nth_error h p = Some f -> nth_error h' p = Some f) -> shows h ps = Some x -> shows h' ps = Some x.
Proof.
  intros K. rewrite !shows_look. revert x. induction ps as [|p ps IH]; intros x E; cbn in *; auto. unfold look at 1 in E. destruct (nth_error h p) as [f|] eqn:Ep; [|discriminate]. cbn [obind option_map] in E.
  destruct (all_some (map (look h) ps)) as [r|] eqn:Er; [|discriminate]. cbn [obind] in E. unfold look at 1. rewrite (K p f Ep). cbn [obind option_map]. rewrite (IH r eq_refl). auto.
Qed.
Lemma shows_new h l : shows (h ++ map (fun d => mkSf (fst d) (snd d) false) l) (seq (length h) (length l)) = Some l.
Proof.
  revert h. induction l as [|[k b] l IH]; intros h; [reflexivity|]. cbn [length seq map]. rewrite shows_look. cbn [map all_some]. unfold look at 1. rewrite nth_mid. cbn [option_map obind fst snd sf_key sf_rev].
  specialize (IH (h ++ [mkSf k b false])). rewrite app_length, <- app_assoc in IH. cbn [length app] in IH. rewrite Nat.add_1_r in IH. rewrite shows_look in IH. rewrite IH. auto.
Qed.
Lemma heap_const h : heap_ok h -> exists t, h = CONSTANTS ++ t.
Proof.
  intros (H0 & H1 & H2 & H3). destruct h as [|a [|b [|c [|d t]]]]; try discriminate. cbn in *. exists t. congruence.
Qed.
Lemma shows_doc h : heap_ok h -> shows h [SORT_FIELD_DOC] = Some [(KDoc, false)].
Proof. intros H. destruct (heap_const h H) as (t & ->). reflexivity. Qed.
Lemma ok_app h t : heap_ok h -> heap_ok (h ++ t).
Proof. intros (H0 & H1 & H2 & H3). unfold heap_ok. rewrite !nth_error_app1 by (apply nth_error_Some; congruence). auto. Qed.
Lemma ok_length h : heap_ok h -> (4 <= length h)%nat.
Proof. intros H. destruct (heap_const h H) as (t & ->). cbn. lia. Qed.
Lemma keep_app (h t : heap) p f : nth_error h p = Some f -> nth_error (h ++ t) p = Some f.
Proof. intros E. rewrite nth_error_app1; auto. apply nth_error_Some. congruence. Qed.
Lemma no_doc n k : (4 <= n)%nat -> existsb (Nat.eqb SORT_FIELD_DOC) (seq n k) = false.
Proof. revert n. induction k as [|k IH]; intros n Hn; cbn [seq existsb]; auto. rewrite IH by lia. unfold SORT_FIELD_DOC. destruct n as [|[|[|n]]]; try lia; auto. Qed.
Lemma sort_string h x ds b : heap_ok h -> parse_sort_str x = Some ds ->
  exists h' ps, sort_init h [RStr x] b = Ok (h', ps) /\ shows h' ps = Some (ds ++ [(KDoc, false)]) /\ forall p f, nth_error h p = Some f -> nth_error h' p = Some f.
Proof.
  intros Hh E. unfold sort_init. cbn [sort_add_all sort_add]. rewrite E, app_nil_r, no_doc by (apply ok_length; auto). eexists _, _. split; [reflexivity|]. split; [|intros p f; apply keep_app].
  apply shows_app; [apply shows_new|apply shows_doc, ok_app; auto].
Qed.
Lemma add_symbols ns b : forall h, exists ps, sort_add_all h (map RSym ns) b = Ok (h ++ map (fun d => mkSf (fst d) (snd d) false) (map (fun n => (KName n, b)) ns), ps) /\ ps = seq (length h) (length ns).
Proof.
  induction ns as [|n ns IH]; intros h; cbn [map sort_add_all]; [rewrite app_nil_r; eauto|]. cbn [sort_add]. destruct (IH (h ++ [mkSf (KName n) b false])) as (ps & -> & ->). eexists. split; [rewrite <- app_assoc; reflexivity|].
  cbn [app length seq]. rewrite app_length. cbn. rewrite Nat.add_1_r. auto.
Qed.
Lemma sort_symbols h ns b : heap_ok h ->
  exists h' ps, sort_init h (map RSym ns) b = Ok (h', ps) /\ shows h' ps = Some (map (fun n => (KName n, b)) ns ++ [(KDoc, false)]) /\ forall p f, nth_error h p = Some f -> nth_error h' p = Some f.
Proof.
  intros Hh. unfold sort_init. destruct (add_symbols ns b h) as (ps & -> & ->). rewrite no_doc by (apply ok_length; auto). eexists _, _. split; [reflexivity|]. split; [|intros p f; apply keep_app].
  apply shows_app; [|apply shows_doc, ok_app; auto]. rewrite <- (map_length (fun n => (KName n, b)) ns). apply shows_new.
Qed.
Lemma add_fields h ps x : shows h ps = Some x -> sort_add_all h (map RField ps) false = Ok (h, ps).
Proof.
  rewrite shows_look. revert x. induction ps as [|p ps IH]; intros x E; cbn [map sort_add_all all_some] in *; auto. unfold look at 1 in E. cbn [sort_add]. destruct (nth_error h p) as [f|]; [|discriminate]. cbn [option_map obind] in E.
  destruct (all_some (map (look h) ps)) as [r|]; [|discriminate]. rewrite (IH r eq_refl). auto.
Qed.
Lemma sort_fields h ps x : heap_ok h -> shows h ps = Some x ->
  exists qs, sort_init h (map RField ps) false = Ok (h, qs) /\ (In SORT_FIELD_DOC ps -> shows h qs = Some x) /\ (~ In SORT_FIELD_DOC ps -> shows h qs = Some (x ++ [(KDoc, false)])).
Proof.
  intros Hh E. unfold sort_init. rewrite (add_fields h ps x E). eexists. split; [reflexivity|]. destruct (existsb _ ps) eqn:Ee.
  - split; auto. intros H. exfalso. apply H. apply existsb_exists in Ee. destruct Ee as (p & Hp & Hq). apply Nat.eqb_eq in Hq. subst p. auto.
  - split; [|intros _; apply shows_app; auto; apply shows_doc; auto]. intros H. exfalso. rewrite <- not_true_iff_false in Ee. apply Ee. apply existsb_exists. exists SORT_FIELD_DOC. split; auto.
Qed.
Lemma set_rev_same h p f : nth_error h p = Some f -> nth_error (set_rev h p f) p = Some (mkSf (sf_key f) (negb (sf_rev f)) (sf_const f)).
Proof.
  intros E. assert (L : (p < length h)%nat) by (apply nth_error_Some; congruence). unfold set_rev. replace p with (length (firstn p h)) at 3 by (rewrite firstn_length; lia). apply nth_mid.
Qed.
Lemma set_rev_other h p f q : nth_error h p = Some f -> q <> p -> nth_error (set_rev h p f) q = nth_error h q.
Proof.
  intros E Hq. assert (L : (p < length h)%nat) by (apply nth_error_Some; congruence). assert (Lf : length (firstn p h) = p) by (rewrite firstn_length; lia). unfold set_rev.
  rewrite <- (firstn_skipn p h) at 3. destruct (Nat.lt_ge_cases q p) as [H|H].
  - rewrite !nth_error_app1 by lia. auto.
  - rewrite !nth_error_app2 by lia. rewrite Lf. destruct (q - p)%nat as [|k] eqn:Ek; [lia|]. cbn [nth_error].
    assert (G : forall (h : heap) p k, nth_error (skipn (S p) h) k = nth_error (skipn p h) (S k)).
    { induction h0 as [|a h0 IH]; intros [|p0] k0; cbn [skipn]; auto; try (destruct k0; auto; fail). apply IH. }
    apply G.
Qed.
(* the same SortField in two Sorts: the second, reversed, turns the first round *)
Lemma sort_shared h p f : heap_ok h -> nth_error h p = Some f -> sf_const f = false ->
  exists h' qs, sort_init h [RField p] false = Ok (h, qs) /\ shows h qs = Some [(sf_key f, sf_rev f); (KDoc, false)] /\ sort_init h [RField p] true = Ok (h', qs) /\ shows h' qs = Some [(sf_key f, negb (sf_rev f)); (KDoc, false)] /\
    sort_init h' [RField p] true = Ok (h, qs).
Proof.
  intros Hh E Hc. assert (Hp : p <> SORT_FIELD_DOC). { intros ->. destruct (heap_const h Hh) as (t & ->). cbn in E. apply some_inj in E. subst f. discriminate. }
  assert (En : existsb (Nat.eqb SORT_FIELD_DOC) [p] = false) by (cbn [existsb]; rewrite orb_false_r; apply Nat.eqb_neq; auto).
  assert (Hd : nth_error (set_rev h p f) SORT_FIELD_DOC = nth_error h SORT_FIELD_DOC) by (apply set_rev_other; auto).
  assert (H2 : nth_error h SORT_FIELD_DOC = Some (mkSf KDoc false true)) by (destruct (heap_const h Hh) as (t & ->); reflexivity).
  exists (set_rev h p f), [p; SORT_FIELD_DOC]. unfold sort_init. cbn [sort_add_all sort_add]. rewrite E, Hc. cbn [app]. rewrite En. split; [reflexivity|]. split; [|split; [reflexivity|split]].
  - unfold shows. cbn [map]. rewrite E, H2. reflexivity.
  - unfold shows. cbn [map]. rewrite (set_rev_same h p f E), Hd, H2. reflexivity.
  - rewrite (set_rev_same h p f E). cbn [sf_const]. rewrite Hc. cbn [app]. rewrite En. f_equal. f_equal. unfold set_rev. cbn [sf_key sf_rev sf_const]. rewrite negb_involutive.
    assert (L : (p < length h)%nat) by (apply nth_error_Some; congruence). assert (Lf : length (firstn p h) = p) by (rewrite firstn_length; lia).
    set (g := mkSf (sf_key f) (negb (sf_rev f)) false). rewrite firstn_app, Lf, Nat.sub_diag. cbn [firstn]. rewrite app_nil_r, firstn_firstn, Nat.min_id.
    replace (firstn p h ++ g :: skipn (S p) h) with ((firstn p h ++ [g]) ++ skipn (S p) h) by (rewrite <- app_assoc; auto). replace (skipn (S p) ((firstn p h ++ [g]) ++ skipn (S p) h)) with (skipn (S p) h).
    2:{ assert (Lg : length (firstn p h ++ [g]) = S p) by (rewrite app_length, Lf; cbn; lia). generalize dependent (firstn p h ++ [g]). intros fg Lg. rewrite <- Lg at 2. rewrite skipn_pfx. auto. }
   
    replace (mkSf (sf_key f) (sf_rev f) false) with f by (destruct f; cbn in *; subst; auto). clear - E. revert h E. induction p as [|p IH]; intros [|a h] E; try discriminate; cbn in *; [apply some_inj in E; subst; auto|]. f_equal. apply IH. auto.
Qed.
Lemma sort_constant h p vs : heap_ok h -> (p < 4)%nat -> sort_init h (RField p :: vs) true = Undef.
Proof. intros H Hp. destruct (heap_const h H) as (t & ->). unfold sort_init. destruct p as [|[|[|[|p]]]]; try lia; reflexivity. Qed.
