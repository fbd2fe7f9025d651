From Verif Require Import Util Array_Model Array_Spec.
Open Scope nat_scope.

Section P.
  Variable A : Type.
  Notation ary := (ary A).
  Implicit Types (a b : ary) (l : list (option A)).
  (* the block: the elements, then at least one NULL *)
  Definition rep a l : Prop := exists k, cells a = l ++ repeat None (S k) /\ sz a = length l.

  Lemma rep_contents a l : rep a l -> contents a = l.
  Proof. intros (k & E & F). unfold contents. rewrite E, F. rewrite firstn_app, Nat.sub_diag, firstn_all, firstn_O, app_nil_r. reflexivity. Qed.
  Lemma rep_new c : rep (ary_new A c) [].
  Proof.
    unfold ary_new, rep; cbn [cells sz]. destruct (c <=? 0)%Z eqn:E.
    - exists 7. split; reflexivity.
    - apply Z.leb_gt in E. exists (Z.to_nat c - 1). cbn [app]. split; [|reflexivity]. f_equal. lia.
  Qed.
  Lemma grow_ok f : forall size c, 1 <= c -> (Z.of_nat size < 2 ^ 30)%Z -> (Z.of_nat size < Z.of_nat c * 2 ^ Z.of_nat f)%Z ->
    exists d, grow (S f) size c = Some d /\ size < d /\ c <= d.
  Proof.
    induction f as [|f IH]; intros size c Hc Hs Hf; cbn [grow].
    - rewrite (proj2 (Nat.ltb_lt size c)) by lia. exists c. repeat split; lia.
    - destruct (Nat.ltb_spec size c); [exists c; repeat split; lia|].
      destruct (Z.leb_spec (2 ^ 31) (2 * Z.of_nat c)); [lia|].
      destruct (IH size (2 * c)) as (d & E & ? & ?); try lia.
      { rewrite Nat2Z.inj_succ, Z.pow_succ_r in Hf by lia. nia. }
      exists d. cbn [grow] in E. rewrite E. repeat split; lia.
  Qed.
  Lemma resize_ok a l i : rep a l -> (Z.of_nat (i + 1) < 2 ^ 30)%Z -> length l <= i ->
    exists b, resize A a i = Some b /\ rep b (l ++ repeat None (i + 1 - length l)).
  Proof.
    intros (k & E & F) Hi Hl. unfold resize, capa. rewrite F, E, app_length, repeat_length.
    rewrite (proj2 (Nat.ltb_lt (length l) (i + 1))) by lia.
    destruct (Nat.leb_spec (length l + S k) (i + 1)).
    - destruct (grow_ok 31 (i + 1) (length l + S k)) as (d & G & ? & ?); try lia.
      rewrite G. cbn [obind]. eexists; split; [reflexivity|].
      exists (d - (i + 1) - 1). cbn [cells sz]. rewrite firstn_app, Nat.sub_diag, firstn_all, firstn_O, app_nil_r, <- app_assoc, <- repeat_app.
      split; [do 2 f_equal; lia|]. rewrite app_length, repeat_length. lia.
    - eexists; split; [reflexivity|]. exists (length l + k - (i + 1)). cbn [cells sz].
      rewrite <- app_assoc, <- repeat_app. split; [do 2 f_equal; lia|]. rewrite app_length, repeat_length. lia.
  Qed.
  Lemma resize_within a i : i < sz a -> resize A a i = Some a.
  Proof. intros H. unfold resize. rewrite (proj2 (Nat.ltb_ge (sz a) (i + 1))) by lia. reflexivity. Qed.
  Lemma upd_app_l (p q : list (option A)) i v : i < length p -> upd (p ++ q) i v = upd p i v ++ q.
  Proof. revert i. induction p as [|x p IH]; intros i H; cbn in *; [lia|]. destruct i; cbn; [reflexivity|]. rewrite IH by lia. reflexivity. Qed.
  Lemma upd_split l i v : i < length l -> upd l i v = firstn i l ++ v :: skipn (i + 1) l.
  Proof. revert i. induction l as [|x p IH]; intros i H; cbn in *; [lia|]. destruct i; cbn; [reflexivity|]. rewrite IH by lia. reflexivity. Qed.
  Lemma write_ok a l i v : rep a l -> i < length l -> exists b, write A a i v = Some b /\ rep b (upd l i v).
  Proof.
    intros (k & E & F) Hi. unfold write, capa. rewrite E, app_length, repeat_length.
    rewrite (proj2 (Nat.ltb_lt i (length l + S k))) by lia. eexists; split; [reflexivity|].
    exists k. cbn [cells sz]. rewrite upd_app_l by exact Hi. rewrite upd_length. split; [reflexivity|exact F].
  Qed.
  Lemma upd_last l n v x : n = length l -> upd (l ++ [x]) n v = l ++ [v].
  Proof. intros ->. induction l as [|y l IH]; cbn; [reflexivity|]. rewrite IH. reflexivity. Qed.
  Lemma read_ok a l i : rep a l -> i < length l -> read A a i = Some (nth i l None).
  Proof. intros (k & E & _) H. unfold read. rewrite E, nth_error_app1 by exact H. apply nth_error_nth_len. exact H. Qed.

  Lemma push_ok a l v : rep a l -> (Z.of_nat (length l) < 2 ^ 29)%Z -> exists b, ary_push A a v = Some b /\ rep b (l ++ [v]).
  Proof.
    intros R H. assert (S : sz a = length l) by (destruct R as (? & _ & ?); assumption). unfold ary_push. rewrite S.
    destruct (resize_ok a l (length l) R) as (b & E & Rb); [lia|lia|]. rewrite E. cbn [obind].
    replace (length l + 1 - length l) with 1 in Rb by lia. cbn [repeat] in Rb.
    destruct (write_ok b _ (length l) v Rb) as (c & E2 & Rc); [rewrite app_length; cbn; lia|].
    exists c. split; [exact E2|]. rewrite upd_last in Rc by reflexivity. exact Rc.
  Qed.
  Lemma pop_ok a l x : rep a (l ++ [x]) -> exists b, ary_pop A a = Some (x, b) /\ rep b l.
  Proof.
    intros R. pose proof R as (k & E & F). unfold ary_pop. rewrite F, app_length. cbn [length]. rewrite Nat.add_1_r.
    rewrite (read_ok a _ (length l) R) by (rewrite app_length; cbn; lia). cbn [obind].
    rewrite app_nth2, Nat.sub_diag by lia. cbn [nth].
    unfold write, capa. cbn [cells sz]. rewrite E, !app_length, repeat_length. cbn [length].
    rewrite (proj2 (Nat.ltb_lt (length l) _)) by lia. cbn [obind]. eexists; split; [reflexivity|].
    exists (S k). cbn [cells sz]. split; [|reflexivity].
    rewrite upd_app_l by (rewrite app_length; cbn; lia). rewrite upd_last by reflexivity. rewrite <- app_assoc. reflexivity.
  Qed.
  Lemma unshift_ok a l v : rep a l -> (Z.of_nat (length l) < 2 ^ 29)%Z -> exists b, ary_unshift A a v = Some b /\ rep b (v :: l).
  Proof.
    intros R H. assert (S : sz a = length l) by (destruct R as (? & _ & ?); assumption). unfold ary_unshift. rewrite S.
    destruct (resize_ok a l (length l) R) as (b & E & Rb); [lia|lia|]. rewrite E. cbn [obind].
    replace (length l + 1 - length l) with 1 in Rb by lia. cbn [repeat] in Rb. destruct Rb as (k & Eb & Fb).
    unfold memmove, capa. rewrite Eb, !app_length, repeat_length. cbn [length].
    rewrite (proj2 (Nat.leb_le (1 + length l) _)), (proj2 (Nat.leb_le (0 + length l) _)) by lia. cbn [andb obind skipn].
    rewrite <- app_assoc. rewrite (firstn_app (length l) l), Nat.sub_diag, firstn_all, firstn_O, app_nil_r.
    set (h := firstn 1 _).
    assert (Hh : length h = 1) by (unfold h; rewrite firstn_length, !app_length; cbn [length]; lia).
    destruct h as [|h0 [|]]; cbn in Hh; try lia. cbn [app].
    unfold write, capa. cbn [cells length]. cbn [Nat.ltb Nat.leb upd]. eexists; split; [reflexivity|].
    exists k. cbn [cells sz]. split; [|rewrite Fb, app_length; cbn; lia]. cbn [app]. f_equal. f_equal.
    rewrite skipn_app, skipn_all2 by lia. replace (1 + length l - length l) with 1 by lia. reflexivity.
  Qed.
  Lemma shift_ok a l x : rep a (x :: l) -> exists b, ary_shift A a = Some (x, b) /\ rep b l.
  Proof.
    intros R. pose proof R as (k & E & F). unfold ary_shift. rewrite (read_ok a _ 0 R) by (cbn; lia). cbn [obind nth].
    rewrite F. cbn [length]. unfold memmove, capa. cbn [cells]. rewrite E, app_length, repeat_length. cbn [length].
    rewrite (proj2 (Nat.leb_le (0 + length l) _)), (proj2 (Nat.leb_le (1 + length l) _)) by lia. cbn [andb obind app firstn skipn].
    rewrite (firstn_app (length l) l), Nat.sub_diag, firstn_all, firstn_O, app_nil_r. cbn [Nat.add].
    assert (Q : exists y, skipn (length l) (x :: l ++ repeat None (S k)) = y :: repeat None (S k)).
    { change (x :: l ++ repeat None (S k)) with ((x :: l) ++ repeat None (S k)). rewrite skipn_app.
      cbn [length]. replace (length l - S (length l)) with 0 by lia.
      assert (L : length (skipn (length l) (x :: l)) = 1) by (rewrite skipn_length; cbn [length]; lia).
      destruct (skipn (length l) (x :: l)) as [|y [|]]; cbn in L; try lia. exists y. reflexivity. }
    destruct Q as (y & Q). rewrite Q. unfold write, capa. cbn [cells sz]. rewrite app_length. cbn [length].
    rewrite (proj2 (Nat.ltb_lt (length l) _)) by lia. cbn [obind]. eexists; split; [reflexivity|].
    exists (S k). cbn [cells sz]. split; [|reflexivity].
    change (y :: repeat None (S k)) with ([y] ++ repeat (@None A) (S k)). rewrite app_assoc, upd_app_l by (rewrite app_length; cbn; lia).
    rewrite upd_last by reflexivity. rewrite <- app_assoc. reflexivity.
  Qed.
  Lemma remove_ok a l i : rep a l -> i < length l -> length l + 1 < capa a ->
    exists b, ary_remove A a (Z.of_nat i) = Some (nth i l None, b) /\ rep b (firstn i l ++ skipn (i + 1) l).
  Proof.
    intros R Hi Hc. pose proof R as (k & E & F). unfold ary_remove. rewrite F.
    rewrite (proj2 (Z.leb_le 0 (Z.of_nat i))), (proj2 (Z.ltb_lt (Z.of_nat i) _)) by lia. cbn [andb]. rewrite Nat2Z.id.
    rewrite (read_ok a l i R Hi). cbn [obind]. unfold capa in Hc. rewrite E, app_length, repeat_length in Hc.
    destruct k as [|k]; [lia|].
    unfold memmove, capa. rewrite E, app_length, repeat_length.
    rewrite (proj2 (Nat.leb_le (i + (length l - i + 1)) _)), (proj2 (Nat.leb_le (i + 1 + (length l - i + 1)) _)) by lia. cbn [andb obind].
    eexists; split; [reflexivity|]. exists (S (S k)). cbn [cells sz]. split.
    - rewrite firstn_app. replace (i - length l) with 0 by lia. rewrite firstn_O, app_nil_r.
      rewrite (skipn_app (i + 1)). replace (i + 1 - length l) with 0 by lia. rewrite skipn_O.
      rewrite firstn_app, (firstn_all2 (skipn (i + 1) l)) by (rewrite skipn_length; lia).
      rewrite skipn_length. replace (length l - i + 1 - (length l - (i + 1))) with 2 by lia.
      rewrite (skipn_app (i + (length l - i + 1))), (skipn_all2 l (n := i + (length l - i + 1))) by lia. replace (i + (length l - i + 1) - length l) with 1 by lia.
      cbn [app]. rewrite <- !app_assoc. reflexivity.
    - rewrite app_length, firstn_length, skipn_length. lia.
  Qed.
  (* with no spare cell the memmove of ary_remove reads behind the block *)
  Lemma remove_overrun a l i : rep a l -> i < length l -> length l + 1 = capa a -> ary_remove A a (Z.of_nat i) = None.
  Proof.
    intros R Hi Hc. pose proof R as (k & E & F). unfold ary_remove. rewrite F.
    rewrite (proj2 (Z.leb_le 0 (Z.of_nat i))), (proj2 (Z.ltb_lt (Z.of_nat i) _)) by lia. cbn [andb]. rewrite Nat2Z.id.
    rewrite (read_ok a l i R Hi). cbn [obind]. unfold memmove.
    rewrite (proj2 (Nat.leb_gt (i + 1 + (length l - i + 1)) (capa a))) by lia. rewrite andb_false_r. reflexivity.
  Qed.

  Lemma step_ok a l o r l' : rep a l -> l_step A l o = Some (r, l') ->
    (Z.of_nat (length l) < 2 ^ 29)%Z ->
    (match o with RemoveAt i => (0 <= i < Z.of_nat (length l))%Z -> length l + 1 < capa a | SetAt i _ => (i < 2 ^ 29)%Z | _ => True end) ->
    exists b, a_step A a o = Some (r, b) /\ rep b l'.
  Proof.
    intros R E Hl Hs. assert (Sz : sz a = length l) by (destruct R as (? & _ & ?); assumption).
    destruct o as [v| |v| |i v|i|i]; cbn [l_step a_step] in *.
    - apply some_inj in E. inversion E; subst. destruct (push_ok a l v R Hl) as (b & E1 & E2). rewrite E1. exists b. split; [reflexivity|exact E2].
    - destruct (rev l) as [|x t] eqn:Er; [discriminate|]. apply some_inj in E. inversion E; subst.
      assert (El : l = rev t ++ [x]) by (rewrite <- (rev_involutive l), Er; reflexivity). rewrite El in R.
      destruct (pop_ok a _ _ R) as (b & E1 & E2). rewrite E1. exists b. split; [reflexivity|exact E2].
    - apply some_inj in E. inversion E; subst. destruct (unshift_ok a l v R Hl) as (b & E1 & E2). rewrite E1. exists b. split; [reflexivity|exact E2].
    - destruct l as [|x t]; [discriminate|]. apply some_inj in E. inversion E; subst.
      destruct (shift_ok a _ _ R) as (b & E1 & E2). rewrite E1. exists b. split; [reflexivity|exact E2].
    - unfold ary_set. rewrite Sz. change (if (i <? 0)%Z then (i + Z.of_nat (length l))%Z else i) with (Array_Spec.norm A i l).
      assert (Hn : (Array_Spec.norm A i l < 2 ^ 29)%Z) by (unfold Array_Spec.norm; destruct (Z.ltb_spec i 0); lia).
      destruct (Z.ltb_spec (Array_Spec.norm A i l) 0).
      { apply some_inj in E. inversion E; subst. exists a. split; [reflexivity|exact R]. }
      apply some_inj in E. inversion E; subst. clear E. set (n := Z.to_nat (Array_Spec.norm A i l)) in *.
      destruct (le_lt_dec (length l) n) as [G|G].
      + destruct (resize_ok a l n R) as (b & E1 & Rb); [lia|lia|]. rewrite E1. cbn [obind].
        destruct (write_ok b _ n v Rb) as (c & E2 & Rc); [rewrite app_length, repeat_length; lia|]. rewrite E2. cbn [obind].
        exists c. split; [reflexivity|]. rewrite (skipn_all2 l) by lia. rewrite (firstn_all2 l) by lia.
        replace (n + 1 - length l) with ((n - length l) + 1) in Rc by lia. rewrite repeat_app in Rc. cbn [repeat] in Rc.
        rewrite app_assoc in Rc. rewrite upd_last in Rc by (rewrite app_length, repeat_length; lia). rewrite <- app_assoc in Rc. exact Rc.
      + rewrite resize_within by lia. cbn [obind]. destruct (write_ok a l n v R G) as (c & E2 & Rc). rewrite E2. cbn [obind].
        exists c. split; [reflexivity|]. replace (n - length l) with 0 by lia. cbn [repeat app]. rewrite upd_split in Rc by exact G. exact Rc.
    - unfold ary_get. rewrite Sz. change (if (i <? 0)%Z then (i + Z.of_nat (length l))%Z else i) with (Array_Spec.norm A i l).
      destruct (Z.leb_spec 0 (Array_Spec.norm A i l)), (Z.ltb_spec (Array_Spec.norm A i l) (Z.of_nat (length l))); cbn [andb] in *;
        apply some_inj in E; inversion E; subst; try (exists a; split; [reflexivity|exact R]).
      rewrite (read_ok a _ _ R) by lia. exists a. split; [reflexivity|exact R].
    - destruct (Z.leb_spec 0 i), (Z.ltb_spec i (Z.of_nat (length l))); cbn [andb] in *;
        apply some_inj in E; inversion E; subst;
        try (unfold ary_remove; rewrite Sz; exists a; split; [|exact R];
             repeat match goal with |- context[(?x <=? ?y)%Z] => destruct (Z.leb_spec x y); try lia | |- context[(?x <? ?y)%Z] => destruct (Z.ltb_spec x y); try lia end; reflexivity).
      destruct (remove_ok a l (Z.to_nat i) R) as (b & E1 & E2); [lia|apply Hs; lia|]. rewrite Z2Nat.id in E1 by lia. rewrite E1.
      exists b. split; [reflexivity|exact E2].
  Qed.
  Lemma run_ok os : forall a l rs l', rep a l -> (Z.of_nat (length l) < 2 ^ 29)%Z -> l_safe A a os -> l_run A l os = Some (rs, l') ->
    exists b, a_run A a os = Some (rs, b) /\ contents b = l'.
  Proof.
    induction os as [|o t IH]; intros a l rs l' R Hl Hs E; cbn [l_run a_run l_safe] in *.
    - apply some_inj in E. inversion E; subst. exists a. split; [reflexivity|apply rep_contents; exact R].
    - assert (Sz : sz a = length l) by (destruct R as (? & _ & ?); assumption).
      destruct (l_step A l o) as [[r m]|] eqn:E1; [|discriminate]. cbn [obind fst snd] in E.
      destruct (l_run A m t) as [[q m']|] eqn:E2; [|discriminate]. cbn [obind fst snd] in E. apply some_inj in E. inversion E; subst.
      destruct Hs as [H1 H2]. destruct (step_ok a l o r m R E1 Hl) as (b & E3 & Rb).
      { destruct o; try exact H1. rewrite Sz in H1. exact H1. }
      rewrite E3 in *. destruct H2 as [H2 H3]. cbn [obind fst snd].
      destruct (IH b m q l' Rb) as (c & E4 & Ec); [|exact H3|exact E2|].
      { destruct Rb as (? & _ & <-). exact H2. }
      rewrite E4. cbn [obind fst snd]. exists c. split; [reflexivity|exact Ec].
  Qed.
  Lemma new_run c os rs l' : l_safe A (ary_new A c) os -> l_run A [] os = Some (rs, l') ->
    exists b, a_run A (ary_new A c) os = Some (rs, b) /\ contents b = l'.
  Proof. intros H. apply (run_ok os (ary_new A c) []); [apply rep_new|reflexivity|exact H]. Qed.
  Lemma new_rep_run os : forall a l rs b, rep a l -> (Z.of_nat (length l) < 2 ^ 29)%Z -> l_safe A a os -> l_run A l os <> None -> a_run A a os = Some (rs, b) -> rep b (contents b).
  Proof.
    induction os as [|o t IH]; intros a l rs b R Hl Hs N E; cbn [l_run a_run l_safe] in *.
    - apply some_inj in E. inversion E; subst. rewrite (rep_contents _ _ R). exact R.
    - assert (Sz : sz a = length l) by (destruct R as (? & _ & ?); assumption).
      destruct (l_step A l o) as [[r m]|] eqn:E1; [|exfalso; apply N; reflexivity]. cbn [obind fst snd] in N.
      destruct Hs as [H1 H2]. destruct (step_ok a l o r m R E1 Hl) as (c & E3 & Rb).
      { destruct o; try exact H1. rewrite Sz in H1. exact H1. }
      rewrite E3 in *. destruct H2 as [H2 H3]. cbn [obind fst snd] in E.
      destruct (a_run A c t) as [[q d]|] eqn:E4; [|discriminate]. cbn [obind fst snd] in E. apply some_inj in E. inversion E; subst.
      refine (IH c m q b Rb _ H3 _ E4). { destruct Rb as (? & _ & <-). exact H2. }
      intros C. rewrite C in N. apply N. reflexivity.
  Qed.
End P.

Lemma remove_overruns_reached (A : Type) c os rs l (b : ary A) i :
  l_safe A (ary_new A c) os -> l_run A [] os = Some (rs, l) -> a_run A (ary_new A c) os = Some (rs, b) ->
  (0 <= i < Z.of_nat (length l))%Z -> sz b + 1 = capa b -> ary_remove A b i = None.
Proof.
  intros Hs Hl Ha Hi Hc. pose proof (new_run A c os rs l Hs Hl) as (b' & Eb & El). rewrite Ha in Eb. apply some_inj in Eb. inversion Eb; subst b'.
  assert (R : rep A b l).
  { rewrite <- El. apply (new_rep_run A os (ary_new A c) [] rs b (rep_new A c)); [reflexivity|exact Hs| |exact Ha]. rewrite Hl. discriminate. }
  assert (Sz : sz b = length l) by (destruct R as (? & _ & ?); assumption).
  rewrite <- (Z2Nat.id i) by lia. apply (remove_overrun A b l); [exact R|lia|lia].
Qed.
Lemma remove_refuted : exists (os : list (aop nat)) r l, l_run nat [] os = Some (r, l) /\ length os = 8 /\ a_run nat (ary_new nat 0) os = None.
Proof.
  exists (repeat (Push (Some 1)) 7 ++ [RemoveAt 3]). eexists. eexists. split; [vm_compute; reflexivity|]. split; vm_compute; reflexivity.
Qed.
