(* What dw_flush writes is the inverted index of the documents, and it is one that can be written. *)
From Verif Require Import Util Strcmp Seg_Model Dict_Model Dict_Spec Token_Model Post_Model Post_Spec Mte_Spec Mte_Proofs MergeTerms_Proofs Fields_Model Fields_Spec Fields_Proofs Invert_Model Invert_Spec Invert_Proofs InvertDoc_Proofs.
Open Scope Z_scope.

(* ---------- sums *)
Definition sum {A} (f : A -> nat) (l : list A) : nat := fold_right (fun x n => (f x + n)%nat) O l.
Lemma sum_cons {A} (f : A -> nat) x l : sum f (x :: l) = (f x + sum f l)%nat. Proof. reflexivity. Qed.
Lemma sum_add {A} (f g : A -> nat) l : sum (fun x => (f x + g x)%nat) l = (sum f l + sum g l)%nat.
Proof. induction l as [|x l IH]; [reflexivity|]. rewrite !sum_cons, IH. lia. Qed.
Lemma sum_le {A} (f g : A -> nat) l : (forall x, In x l -> (f x <= g x)%nat) -> (sum f l <= sum g l)%nat.
Proof. induction l as [|x l IH]; intros H; [reflexivity|]. rewrite !sum_cons. specialize (IH (fun y Hy => H y (or_intror Hy))). pose proof (H x (or_introl eq_refl)). lia. Qed.
Lemma sum_ext {A} (f g : A -> nat) l : (forall x, In x l -> f x = g x) -> sum f l = sum g l.
Proof. induction l as [|x l IH]; intros H; [reflexivity|]. rewrite !sum_cons, IH, (H x); cbn [In]; auto. intros y Hy. apply H. right. auto. Qed.
Lemma sum_zero {A} l : sum (fun _ : A => O) l = O. Proof. induction l; auto. Qed.
Lemma sum_map {A B} (h : A -> B) (f : B -> nat) l : sum f (map h l) = sum (fun x => f (h x)) l.
Proof. induction l as [|x l IH]; [reflexivity|]. cbn [map]. rewrite !sum_cons, IH. reflexivity. Qed.
Lemma len_concat {A} (l : list (list A)) : length (concat l) = sum (@length A) l.
Proof. induction l as [|x l IH]; [reflexivity|]. cbn [concat]. rewrite app_length, IH. reflexivity. Qed.
Lemma len_flat {A B} (f : A -> list B) l : length (flat_map f l) = sum (fun x => length (f x)) l.
Proof. induction l as [|x l IH]; [reflexivity|]. cbn [flat_map]. rewrite app_length, IH. reflexivity. Qed.
Lemma sum_concat {A} (f : A -> nat) (l : list (list A)) : sum f (concat l) = sum (sum f) l.
Proof. induction l as [|x l IH]; [reflexivity|]. cbn [concat]. rewrite sum_cons, <- IH. unfold sum. induction x as [|y x IHx]; cbn [app fold_right]; [reflexivity|]. rewrite IHx. lia. Qed.
Lemma sum_swap {A B} (f : A -> B -> nat) (l : list A) (m : list B) : sum (fun x => sum (f x) m) l = sum (fun y => sum (fun x => f x y) l) m.
Proof. induction l as [|x l IH]; cbn [sum fold_right]; [rewrite (sum_zero m); reflexivity|]. rewrite !sum_cons || idtac. change (fold_right (fun x0 n => (sum (f x0) m + n)%nat) O l) with (sum (fun x0 => sum (f x0) m) l). rewrite IH, <- sum_add. reflexivity. Qed.
(* at most one of different things *)
Lemma sum_once {A} (p : A -> bool) c l : NoDup l -> (forall x y, p x = true -> p y = true -> x = y) -> (sum (fun x => if p x then c else O) l <= c)%nat.
Proof.
  intros HN Hp. induction HN as [|x l Hx HN IH]; [cbn; lia|]. rewrite sum_cons. destruct (p x) eqn:E; [|lia].
  rewrite (sum_ext _ (fun _ => O)); [rewrite sum_zero; lia|]. intros y Hy. destruct (p y) eqn:E2; auto. exfalso. apply Hx. rewrite (Hp x y); auto.
Qed.
Lemma sum_filter_le {A} (f : A -> nat) p l : (sum f (filter p l) <= sum f l)%nat.
Proof. induction l as [|x l IH]; [reflexivity|]. cbn [filter]. destruct (p x); rewrite ?sum_cons; lia. Qed.

Section IDX.
  Variable ana : list Z -> list Z -> list token.
  Variable norm : field_info -> Z -> dfield -> Z -> Z.
  Variable max : Z.
  Variable mbd : nat.
  Variable F : field_infos.
  Notation occs_of := (occs_of ana max).
  Notation occs_in := (occs_in ana max).
  Notation posts := (posts ana max).
  Notation norm_of := (norm_of ana norm max).

  Lemma posts_in n t docs : forall i, posts F n t i docs <> [] <-> In t (map o_text (flat_map (occs_in F n) docs)).
  Proof.
    induction docs as [|d docs IH]; intros i; cbn [Invert_Spec.posts flat_map]; [split; [congruence|intros []]|]. rewrite map_app, in_app_iff, <- (IH (S i)).
    pose proof (at_nil t (occs_in F n d)) as Ha. rewrite <- (post_at_nil i) in Ha. destruct (post_at i (at_ t (occs_in F n d))) as [|p q] eqn:E.
    - cbn [app]. split; [auto|]. intros [H|H]; auto. exfalso. apply (proj1 Ha eq_refl). exact H.
    - cbn [app]. split; [|discriminate]. intros _. left. destruct (in_dec (list_eq_dec Z.eq_dec) t (map o_text (occs_in F n d))) as [Hi|Hi]; auto. apply Ha in Hi. discriminate.
  Qed.
  Lemma has_indexed n docs f : existsb (has_field F n) docs = true -> nth_error (fis_fields F) n = Some f -> fi_is_indexed f = true.
  Proof.
    intros H Ef. apply existsb_exists in H. destruct H as (d & _ & H). unfold has_field, field_of in H. destruct (find (is_field F n) (d_fields d)) as [df|] eqn:E; [|discriminate]. apply find_some in E. destruct E as [_ E].
    unfold is_field in E. destruct (fis_get F (df_name df)) as [(m & g)|] eqn:Eg; [|discriminate]. apply andb_prop in E. destruct E as [E1 E2]. apply Nat.eqb_eq in E1. subst m. apply fis_get_nth in Eg. destruct Eg. congruence.
  Qed.
  Lemma inverted_ok docs s : x_fis s = F -> tab_ok ana norm max mbd F docs (x_tab s) -> inverted s = index_of ana max F docs.
  Proof.
    intros EF Ht. unfold inverted, fields_to_write, index_of. rewrite EF.
    assert (G : forall l k, (forall i, nth_error (fis_fields F) (k + i) = nth_error l i) ->
      map (fun x => (Z.of_nat (fst (fst x)), sort_pls (f_pls (snd x)))) (flat_map (fun x : nat * field_info => if fi_is_indexed (snd x) then match tab_get (fst x) (x_tab s) with Some v => [(x, v)] | None => [] end else []) (combine (seq k (length l)) l)) =
      map (fun n => (Z.of_nat n, map (fun t => (t, posts F n t O docs)) (terms_in_field ana max F n docs))) (filter (fun n => existsb (has_field F n) docs) (seq k (length l)))).
    { induction l as [|f l IH]; intros k Hk; cbn [length seq combine flat_map filter map]; [reflexivity|]. rewrite map_app. rewrite IH by (intros i; specialize (Hk (S i)); cbn [nth_error] in Hk; rewrite <- Hk; f_equal; lia).
      pose proof (Hk O) as H0. rewrite Nat.add_0_r in H0. cbn [nth_error] in H0. cbn [fst snd]. pose proof (Ht k) as H. destruct (tab_get k (x_tab s)) as [v|].
      - destruct H as (He & f' & E & _ & _ & _ & _ & Hv). rewrite H0 in E. apply some_inj in E. subst f'. rewrite He. rewrite (has_indexed _ _ _ He H0). cbn [map app fst snd]. f_equal. f_equal. apply sorted_lists; [exact Hv|]. intros t. apply posts_in.
      - rewrite H. destruct (fi_is_indexed f); reflexivity. }
    apply G. reflexivity.
  Qed.
  Lemma norm_files_ok docs s : x_fis s = F -> x_doc s = length docs -> tab_ok ana norm max mbd F docs (x_tab s) -> norm_files (x_doc s) (fields_to_write s) = Some (norm_table ana norm max F docs).
  Proof.
    intros EF Ed Ht. unfold fields_to_write, norm_table. rewrite EF, Ed.
    assert (G : forall l k, (forall i, nth_error (fis_fields F) (k + i) = nth_error l i) ->
      norm_files (length docs) (flat_map (fun x : nat * field_info => if fi_is_indexed (snd x) then match tab_get (fst x) (x_tab s) with Some v => [(x, v)] | None => [] end else []) (combine (seq k (length l)) l)) =
      Some (flat_map (fun n => match nth_error (fis_fields F) n with Some f => if fi_has_norms f && existsb (has_field F n) docs then [(n, map (norm_of F n) docs)] else [] | None => [] end) (seq k (length l)))).
    { induction l as [|f l IH]; intros k Hk; cbn [length seq combine flat_map]; [reflexivity|].
      specialize (IH (S k) ltac:(intros i; specialize (Hk (S i)); cbn [nth_error] in Hk; rewrite <- Hk; f_equal; lia)).
      pose proof (Hk O) as H0. rewrite Nat.add_0_r in H0. cbn [nth_error] in H0. rewrite H0. cbn [fst snd]. pose proof (Ht k) as H. destruct (tab_get k (x_tab s)) as [v|].
      - destruct H as (He & f' & E & _ & _ & _ & Hn & _). rewrite H0 in E. apply some_inj in E. subst f'. rewrite He. unfold fi_has_norms in *. rewrite (has_indexed _ _ _ He H0) in *. cbn [app norm_files andb negb fst snd] in *.
        rewrite IH. cbn [obind]. destruct (fi_omit_norms f); [reflexivity|]. cbn [negb andb app] in *. rewrite Hn. replace (length _ <? length docs)%nat with false by (symmetry; apply Nat.ltb_ge; rewrite app_length, map_length; lia).
        rewrite firstn_app, map_length, Nat.sub_diag, firstn_O, app_nil_r. rewrite firstn_all2 by (rewrite map_length; lia). reflexivity.
      - rewrite H. rewrite Bool.andb_false_r. destruct (fi_is_indexed f); exact IH. }
    apply G. reflexivity.
  Qed.

  (* ---------- sizes *)
  Lemma posts_positions n t docs : forall i, sum (fun p : post => length (snd p)) (posts F n t i docs) = length (at_ t (flat_map (occs_in F n) docs)).
  Proof.
    induction docs as [|d docs IH]; intros i; cbn [Invert_Spec.posts flat_map]; [reflexivity|]. rewrite at_app, app_length, <- (IH (S i)). destruct (at_ t (occs_in F n d)) as [|a q]; reflexivity.
  Qed.
  Lemma posts_nonempty n t docs : forall i, (length (posts F n t i docs) <= sum (fun p : post => length (snd p)) (posts F n t i docs))%nat.
  Proof. induction docs as [|d docs IH]; intros i; cbn [Invert_Spec.posts]; [cbn; lia|]. specialize (IH (S i)). destruct (at_ t (occs_in F n d)) as [|a q]; cbn [post_at app]; [exact IH|]. rewrite sum_cons. cbn [length snd]. lia. Qed.
  Lemma at_total ts os : NoDup ts -> (sum (fun t => length (at_ t os)) ts <= length os)%nat.
  Proof.
    intros HN. induction os as [|o os IH]; [rewrite (sum_ext _ (fun _ => O)); [rewrite sum_zero; cbn; lia|reflexivity]|].
    rewrite (sum_ext _ (fun t => ((if seqb (o_text o) t then 1 else 0) + length (at_ t os))%nat)); [|intros t _; unfold at_; cbn [filter]; destruct (seqb (o_text o) t); reflexivity].
    rewrite sum_add. cbn [length]. pose proof (sum_once (fun t => seqb (o_text o) t) 1 ts HN) as H. specialize (H ltac:(intros x y Hx Hy; apply seqb_spec' in Hx; apply seqb_spec' in Hy; congruence)). lia.
  Qed.
  Lemma doc_total ns d : NoDup ns -> (sum (fun n => length (occs_in F n d)) ns <=
    sum (fun df => length (match fis_get F (df_name df) with Some (_, f) => if fi_is_indexed f then occs_of f df else [] | None => [] end)) (d_fields d))%nat.
  Proof.
    intros HN. unfold Invert_Spec.occs_in, field_of. induction (d_fields d) as [|df l IH]; [cbn [find]; rewrite (sum_ext _ (fun _ => O)) by reflexivity; rewrite sum_zero; lia|]. cbn [find]. rewrite sum_cons.
    etransitivity; [apply (sum_le _ (fun n => ((if is_field F n df then length (match fis_get F (df_name df) with Some (_, f) => if fi_is_indexed f then occs_of f df else [] | None => [] end) else 0) + length (match find (is_field F n) l, nth_error (fis_fields F) n with Some df, Some f => occs_of f df | _, _ => [] end))%nat))|].
    - intros n _. destruct (is_field F n df) eqn:E; [|lia]. unfold is_field in E. destruct (fis_get F (df_name df)) as [(m & f)|] eqn:Eg; [|discriminate]. apply andb_prop in E. destruct E as [E1 E2]. apply Nat.eqb_eq in E1. subst m. rewrite E2. rewrite (proj1 (fis_get_nth _ _ _ _ Eg)). lia.
    - rewrite sum_add. apply Nat.add_le_mono; [|exact IH]. apply sum_once; auto. intros x y. unfold is_field. destruct (fis_get F (df_name df)) as [(m & f)|]; [|discriminate]. intros Hx Hy. apply andb_prop in Hx. apply andb_prop in Hy. destruct Hx as [Hx _], Hy as [Hy _]. apply Nat.eqb_eq in Hx. apply Nat.eqb_eq in Hy. congruence.
  Qed.
  Lemma all_total docs : (sum (fun n => length (flat_map (occs_in F n) docs)) (seq 0 (length (fis_fields F))) <= occ_count ana max F docs)%nat.
  Proof.
    unfold occ_count. rewrite len_flat. rewrite (sum_ext _ (fun n => sum (fun d => length (occs_in F n d)) docs)) by (intros; apply len_flat). rewrite sum_swap. apply sum_le. intros d _. rewrite len_flat. apply doc_total, seq_NoDup.
  Qed.
  Lemma sorted_nodup l : StronglySorted slt l -> NoDup l.
  Proof. induction 1 as [|a l HS IH HF]; constructor; auto. intros Hi. rewrite Forall_forall in HF. exact (slt_irr a (HF a Hi)). Qed.
  Lemma distinct_len l : (length (distinct l) <= length l)%nat.
  Proof. apply NoDup_incl_length; [apply sorted_nodup, distinct_sorted|]. intros x. apply distinct_in. Qed.
  Lemma field_total n docs : (sum (fun t => length (at_ t (flat_map (occs_in F n) docs))) (terms_in_field ana max F n docs) <= length (flat_map (occs_in F n) docs))%nat.
  Proof. apply at_total, sorted_nodup, distinct_sorted. Qed.
  Lemma posts_sorted n t docs : forall i, StronglySorted (fun a b : post => fst a < fst b) (posts F n t i docs) /\ Forall (fun p : post => Z.of_nat i <= fst p < Z.of_nat (i + length docs)) (posts F n t i docs).
  Proof.
    induction docs as [|d docs IH]; intros i; cbn [Invert_Spec.posts]; [split; constructor|]. destruct (IH (S i)) as [H1 H2]. cbn [length].
    assert (H3 : Forall (fun p : post => Z.of_nat i <= fst p < Z.of_nat (i + S (length docs))) (posts F n t (S i) docs)) by (eapply Forall_impl; [|exact H2]; cbv beta; intros; lia).
    destruct (at_ t (occs_in F n d)); cbn [post_at app]; [split; auto|]. split; constructor; auto; cbn [fst]; [|lia]. eapply Forall_impl; [|exact H2]. cbv beta. intros. cbn [fst]. lia.
  Qed.
  Lemma posts_pos n t docs (Q : Z -> Prop) : (forall d o, In d docs -> In o (occs_in F n d) -> Q (o_pos o)) -> forall i, Forall (fun p : post => Forall Q (snd p)) (posts F n t i docs).
  Proof.
    intros H. revert H. induction docs as [|d docs IH]; intros H i; cbn [Invert_Spec.posts]; [constructor|]. apply Forall_app. split; [|apply IH; intros d' o Hd; apply H; right; auto].
    assert (HQ : Forall Q (at_ t (occs_in F n d))). { unfold at_. apply Forall_map. apply Forall_forall. intros o Ho. apply filter_In in Ho. apply (H d o); [left; auto|tauto]. }
    destruct (at_ t (occs_in F n d)); cbn [post_at]; constructor; auto.
  Qed.
  Lemma occs_in_ok n d : doc_good ana max F d -> Forall (fun o => term_ok (o_text o) /\ 0 <= o_pos o < 2 ^ 31) (occs_in F n d).
  Proof.
    intros (_ & H). unfold Invert_Spec.occs_in, field_of. destruct (find (is_field F n) (d_fields d)) as [df|] eqn:E; [|constructor]. destruct (nth_error (fis_fields F) n) as [f|] eqn:Ef; [|constructor].
    apply find_some in E. destruct E as [Hin E]. unfold is_field in E. destruct (fis_get F (df_name df)) as [(m & g)|] eqn:Eg; [|discriminate]. apply andb_prop in E. destruct E as [E1 E2]. apply Nat.eqb_eq in E1. subst m. pose proof (fis_get_nth _ _ _ _ Eg) as [E3 _]. rewrite Ef in E3. apply some_inj in E3. subst g.
    rewrite Forall_forall in H. destruct (H df Hin n f Eg E2) as [Ho _]. eapply Forall_impl; [|exact Ho]. cbv beta. intros o [A B]. split; auto. destruct (fi_store_offsets f); lia.
  Qed.

  Lemma index_ok docs : Forall (doc_good ana max F) docs -> Z.of_nat (length docs) < 2 ^ 30 -> Z.of_nat (length (fis_fields F)) < 2 ^ 31 -> Z.of_nat (occ_count ana max F docs) < 2 ^ 28 ->
    inv_ok (index_of ana max F docs).
  Proof.
    intros HD Hd Hf Hc. set (N := occ_count ana max F docs) in *. pose proof (all_total docs) as HT. fold N in HT. set (ns := filter (fun n => existsb (has_field F n) docs) (seq 0 (length (fis_fields F)))).
    assert (HT' : (sum (fun n => length (flat_map (occs_in F n) docs)) ns <= N)%nat) by (etransitivity; [apply sum_filter_le|exact HT]).
    assert (H1 : forall n, (n < length (fis_fields F))%nat -> (length (flat_map (occs_in F n) docs) <= N)%nat).
    { intros n Hn. etransitivity; [|exact HT]. assert (Hi : In n (seq 0 (length (fis_fields F)))) by (apply in_seq; lia). clear -Hi. induction (seq 0 (length (fis_fields F))) as [|y l IH]; [destruct Hi|]. rewrite sum_cons. destruct Hi as [->|Hi]; [lia|]. specialize (IH Hi). lia. }
    assert (Hat : forall n t, (length (at_ t (flat_map (occs_in F n) docs)) <= length (flat_map (occs_in F n) docs))%nat) by (intros; unfold at_; rewrite map_length; apply flen).
    assert (Hterms : forall n t, In t (terms_in_field ana max F n docs) -> term_ok t).
    { intros n t Hi. apply (proj1 (distinct_in _ _)) in Hi. apply in_map_iff in Hi. destruct Hi as (o & <- & Ho). apply in_flat_map in Ho. destruct Ho as (d & Hdi & Ho). rewrite Forall_forall in HD. pose proof (occs_in_ok n d (HD d Hdi)) as G. rewrite Forall_forall in G. apply (G o Ho). }
    unfold inv_ok, index_of. fold ns. split; [|split; [|split; [|split]]].
    - apply Forall_map. apply Forall_forall. intros n Hn. apply filter_In in Hn. destruct Hn as [Hn _]. apply in_seq in Hn. cbn [fst snd]. split; [lia|]. split; [|split].
      + apply Forall_map. apply Forall_forall. intros t Hi. cbn [fst snd]. split; [eapply Hterms; eauto|]. specialize (H1 n ltac:(lia)). specialize (Hat n t). pose proof (posts_positions n t docs O) as HP. pose proof (posts_nonempty n t docs O) as HE. destruct (posts_sorted n t docs O) as [HS HB].
        assert (HQ : Forall (fun p : post => Forall (fun x => 0 <= x < 2 ^ 31) (snd p)) (posts F n t 0 docs)).
        { apply (posts_pos n t docs (fun x => 0 <= x < 2 ^ 31)). intros d o Hdi Ho. rewrite Forall_forall in HD. pose proof (occs_in_ok n d (HD d Hdi)) as G. rewrite Forall_forall in G. apply (G o Ho). }
        split; [|split; [exact HS|]].
        * rewrite Forall_forall in *. intros p Hp. specialize (HB p Hp). specialize (HQ p Hp). split; [lia|]. split; [exact HQ|]. unfold freq.
          assert (length (snd p) <= sum (fun p : post => length (snd p)) (posts F n t 0 docs))%nat. { clear -Hp. induction (posts F n t 0 docs) as [|y l IH]; [destruct Hp|]. rewrite sum_cons. destruct Hp as [->|Hp]; [lia|]. specialize (IH Hp). lia. } lia.
        * rewrite len_concat, sum_map. lia.
      + apply keyed_sorted.
      + rewrite map_length. unfold terms_in_field. pose proof (distinct_len (map o_text (flat_map (occs_in F n) docs))) as HL. rewrite map_length in HL. specialize (H1 n ltac:(lia)). lia.
    - rewrite map_map. cbn [fst]. apply FinFun.Injective_map_NoDup; [intros x y; lia|]. apply NoDup_filter, seq_NoDup.
    - rewrite map_length. pose proof (flen (fun n => existsb (has_field F n) docs) (seq 0 (length (fis_fields F)))) as HL. rewrite seq_length in HL. fold ns in HL. lia.
    - rewrite map_map. cbn [snd]. rewrite len_concat, sum_map.
      assert (sum (fun n => length (map (fun t => (t, posts F n t 0 docs)) (terms_in_field ana max F n docs))) ns <= N)%nat; [|lia]. etransitivity; [|exact HT']. apply sum_le. intros n _. rewrite map_length. pose proof (distinct_len (map o_text (flat_map (occs_in F n) docs))) as HL. rewrite map_length in HL. exact HL.
    - cbv zeta. match goal with |- context [concat (map snd (concat (map snd (map ?f ns))))] => set (all := concat (map snd (concat (map snd (map f ns))))) end. rewrite len_concat, sum_map.
      assert (HA : (sum (fun p : post => length (snd p)) all <= N)%nat).
      { unfold all. rewrite map_map. cbn [snd]. rewrite sum_concat, sum_map, sum_concat, sum_map. etransitivity; [|exact HT']. apply sum_le. intros n _. rewrite sum_map. cbn [snd]. etransitivity; [|apply field_total]. apply sum_le. intros t _. rewrite posts_positions. lia. }
      assert (HB : (length all <= N)%nat).
      { etransitivity; [|exact HA]. unfold all. rewrite map_map. cbn [snd]. rewrite len_concat, !sum_concat, !sum_map, !sum_concat, !sum_map. apply sum_le. intros n _. rewrite !sum_map. apply sum_le. intros t _. cbn [snd]. apply posts_nonempty. }
      lia.
  Qed.
End IDX.
