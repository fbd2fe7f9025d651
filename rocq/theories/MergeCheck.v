(* Checking the conditions of the merge theorems on concrete segments. *)
From Verif Require Import Util Codec_Model Seg_Model Strcmp Dict_Model Dict_Spec Post_Model Post_Spec Merge_Model Merge_Spec.
Open Scope Z_scope.

Fixpoint chain {A} (r : A -> A -> bool) (l : list A) : bool := match l with x :: (y :: _) as t => r x y && chain r t | _ => true end.
Lemma chain_ok {A} (R : A -> A -> Prop) (r : A -> A -> bool) : (forall x y, r x y = true -> R x y) -> (forall x y z, R x y -> R y z -> R x z) -> forall l, chain r l = true -> StronglySorted R l.
Proof.
  intros H1 H2. induction l as [|x l IH]; intros H; [constructor|]. destruct l as [|y l]; [constructor; constructor|]. cbn [chain] in H. apply andb_true_iff in H. destruct H as (Hxy & H). specialize (IH H). constructor; [exact IH|]. inversion IH as [|? ? _ HF]; subst. constructor; [auto|]. rewrite Forall_forall in *. intros z Hz. apply (H2 _ y); auto.
Qed.
Lemma forallb_Forall {A} (p : A -> bool) (P : A -> Prop) l : (forall x, p x = true -> P x) -> forallb p l = true -> Forall P l.
Proof. intros H E. rewrite forallb_forall in E. apply Forall_forall. auto. Qed.
Definition post_b (p : post) : bool := (0 <=? fst p) && (fst p <? 2 ^ 30) && forallb (fun x => (0 <=? x) && (x <? 2 ^ 31)) (snd p) && (freq p <? 2 ^ 31).
Definition plist_b (l : list post) : bool := forallb post_b l && chain (fun a b => fst a <? fst b) l && (Z.of_nat (5 * length (concat (map snd l)) + 10 * length l) <? 2 ^ 32).
Definition term_b (t : list Z) : bool := forallb (fun b => (0 <? b) && (b <? 256)) t && (length t <? 255)%nat.
Definition slt_b (a b : list Z) : bool := match scmp a b with Lt => true | _ => false end.
Definition inv_b (fs : list (Z * list (list Z * list post))) : bool :=
  forallb (fun f => (0 <=? fst f) && (fst f <? 2 ^ 31) && forallb (fun x => term_b (fst x) && plist_b (snd x)) (snd f) && chain (fun a b => slt_b (fst a) (fst b)) (snd f) && (Z.of_nat (length (snd f)) <? 2 ^ 31 - 1)) fs &&
  chain (fun a b => fst a <? fst b) fs && (Z.of_nat (length fs) <? 2 ^ 31) && (Z.of_nat (length (concat (map snd fs))) <? 2 ^ 48) &&
  (let all := concat (map snd (concat (map snd fs))) in Z.of_nat (5 * length (concat (map snd all)) + 40 * length all) <? 2 ^ 62).
Lemma plist_b_ok l : plist_b l = true -> plist_ok l.
Proof.
  unfold plist_b. rewrite !andb_true_iff. intros ((H1 & H2) & H3). split; [|split].
  - eapply forallb_Forall; [|exact H1]. intros p. unfold post_b. rewrite !andb_true_iff. intros (((K1 & K2) & K3) & K4). split; [lia|]. split; [|lia]. eapply forallb_Forall; [|exact K3]. intros x Hx. apply andb_true_iff in Hx. lia.
  - apply (chain_ok _ (fun a b : post => fst a <? fst b)); auto; intros; lia.
  - lia.
Qed.
Lemma term_b_ok t : term_b t = true -> term_ok t.
Proof. unfold term_b. rewrite andb_true_iff. intros (H1 & H2). split; [|apply Nat.ltb_lt; auto]. eapply forallb_Forall; [|exact H1]. intros x Hx. apply andb_true_iff in Hx. lia. Qed.
Lemma inv_b_ok fs : inv_b fs = true -> inv_ok fs.
Proof.
  unfold inv_b. rewrite !andb_true_iff. intros ((((H1 & H2) & H3) & H4) & H5). unfold inv_ok. split; [|split; [|split; [lia|split; [lia|]]]].
  - eapply forallb_Forall; [|exact H1]. intros f. cbv beta. rewrite !andb_true_iff. intros ((((K1 & K2) & K3) & K4) & K5). split; [lia|]. split; [|split; [|lia]].
    + eapply forallb_Forall; [|exact K3]. intros x. cbv beta. rewrite andb_true_iff. intros (A1 & A2). split; [apply term_b_ok; auto|apply plist_b_ok; auto].
    + apply (chain_ok _ (fun a b : list Z * list post => slt_b (fst a) (fst b))); auto.
      * intros x y. unfold slt_b, slt. destruct (scmp (fst x) (fst y)); auto; discriminate.
      * intros x y z. apply slt_trans.
  - assert (HS : StronglySorted (fun a b : Z * list (list Z * list post) => fst a < fst b) fs) by (apply (chain_ok _ (fun a b => fst a <? fst b)); auto; intros; lia). clear -HS. induction HS as [|a l HS IH HF]; cbn [map]; constructor; auto. intros Hin. apply in_map_iff in Hin. destruct Hin as (x & E & Hx). rewrite Forall_forall in HF. specialize (HF x Hx). lia.
  - cbv zeta in *. lia.
Qed.
Definition mseg_b (s : mseg) : bool := inv_b (s_fs s) && forallb (fun f => forallb (fun x => forallb (fun p => fst p <? Z.of_nat (s_max s)) (snd x)) (snd f)) (s_fs s).
Lemma mseg_b_ok s : mseg_b s = true -> mseg_ok s.
Proof.
  unfold mseg_b. rewrite andb_true_iff. intros (H1 & H2). split; [apply inv_b_ok; auto|]. eapply forallb_Forall; [|exact H2]. intros f Hf. eapply forallb_Forall; [|exact Hf]. intros x Hx. eapply forallb_Forall; [|exact Hx]. intros p Hp. cbv beta in Hp. lia.
Qed.
Definition fits_b (nf : nat) (ss : list mseg) : bool :=
  let m := merged nf ss in
  (Z.of_nat (total ss) <=? 2 ^ 30) && (Z.of_nat nf <? 2 ^ 31) &&
  forallb (fun f => (Z.of_nat (length (snd f)) <? 2 ^ 31 - 1) && forallb (fun x => Z.of_nat (weight (snd x)) <? 2 ^ 32) (snd f)) m &&
  (Z.of_nat (length (concat (map snd m))) <? 2 ^ 48) && (Z.of_nat (weight (concat (map snd (concat (map snd m))))) <? 2 ^ 62).
Lemma fits_b_ok nf ss : fits_b nf ss = true -> fits nf ss.
Proof.
  unfold fits_b. cbv zeta. rewrite !andb_true_iff. intros ((((H1 & H2) & H3) & H4) & H5). unfold fits. split; [lia|]. split; [lia|]. split; [|split; lia]. eapply forallb_Forall; [|exact H3]. intros f Hf. cbv beta in *. apply andb_true_iff in Hf. destruct Hf as (K1 & K2). split; [lia|]. eapply forallb_Forall; [|exact K2]. intros x Hx. cbv beta in Hx. lia.
Qed.
Definition short_b (interval : nat) (s : mseg) : bool := forallb (fun f => forallb (fun x => ((interval + 2) * (length (fst x) + 1) <=? (interval + 1) * MAX_WORD_SIZE + 1)%nat) (snd f)) (s_fs s).
Lemma short_b_ok i s : short_b i s = true -> short i s.
Proof. intros H. eapply forallb_Forall; [|exact H]. intros f Hf. eapply forallb_Forall; [|exact Hf]. intros x Hx. apply Nat.leb_le. exact Hx. Qed.
