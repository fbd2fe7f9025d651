(* Merging segments: stored fields and norms. *)
From Verif Require Import Util Codec_Model Codec_Spec Codec_Proofs Seg_Model Strcmp Dict_Model Dict_Spec Post_Model Post_Spec Mte_Spec Merge_Model Merge_Spec Merge_Proofs.
Open Scope Z_scope.

(* ---------- lists *)
Definition live_from {A} (del : Z -> bool) (j : nat) (l : list A) : list A :=
  map snd (filter (fun x => negb (del (Z.of_nat (fst x)))) (combine (seq j (length l)) l)).
Lemma live_from_cons {A} del j (x : A) l : live_from del j (x :: l) = (if del (Z.of_nat j) then [] else [x]) ++ live_from del (S j) l.
Proof. unfold live_from. cbn [length seq combine filter fst]. destruct (del (Z.of_nat j)); reflexivity. Qed.
Lemma fdt_app a b : fdt_of (a ++ b) = fdt_of a ++ fdt_of b.
Proof. unfold fdt_of. rewrite map_app, concat_app. reflexivity. Qed.
Lemma fdx_app a : forall off b, fdx_of off (a ++ b) = fdx_of off a ++ fdx_of (off + length (fdt_of a)) b.
Proof.
  induction a as [|d a IH]; intros off b; cbn [app fdx_of]; [unfold fdt_of; cbn [map concat length]; rewrite Nat.add_0_r; reflexivity|].
  rewrite IH, <- !app_assoc. unfold fdt_of. cbn [map concat]. rewrite app_length. do 4 f_equal. lia.
Qed.
Lemma fdx_len ds : forall off, length (fdx_of off ds) = (12 * length ds)%nat.
Proof. induction ds as [|d ds IH]; intros off; [reflexivity|]. cbn [fdx_of length]. rewrite !app_length, IH. unfold enc_64, enc_32. cbn [length]. lia. Qed.
Lemma seek_app (a b : list Z) : seek (a ++ b) (Z.of_nat (length a)) = b.
Proof. unfold seek. rewrite Nat2Z.id, skipn_app, skipn_all, Nat.sub_diag. reflexivity. Qed.

(* ---------- one segment *)
Section SEG.
  Variable (del : Z -> bool).
  Lemma copy_docs_ok ds : Forall doc_ok ds -> Z.of_nat (length (fdt_of ds)) < 2 ^ 63 -> forall rest pre acc d, ds = pre ++ d :: rest ->
    copy_docs (S (length rest)) (Z.of_nat (length pre)) del (fdt_of ds) (enc_32 (snd d) ++ fdx_of (length (fdt_of pre) + length (fst d)) rest) (Z.of_nat (length (fdt_of pre))) (fdt_of acc) (fdx_of O acc)
    = Some (fdt_of (acc ++ live_from del (length pre) (d :: rest)), fdx_of O (acc ++ live_from del (length pre) (d :: rest))).
  Proof.
    intros HF HL. induction rest as [|d2 rest IH]; intros pre acc d E.
    - cbn [copy_docs fdx_of]. rewrite dec_enc_32. cbn [obind fst snd]. rewrite live_from_cons. unfold live_from. cbn [length seq combine filter map].
      assert (Hd : doc_ok d) by (rewrite Forall_forall in HF; apply HF; rewrite E; apply in_or_app; right; left; auto). unfold doc_ok in Hd. rewrite (Z.mod_small (snd d)) by lia.
      assert (Et : fdt_of ds = fdt_of pre ++ fst d) by (rewrite E, fdt_app; unfold fdt_of at 2; cbn [map concat]; rewrite app_nil_r; reflexivity).
      destruct (del (Z.of_nat (length pre))); [rewrite app_nil_r; reflexivity|]. rewrite app_nil_r. rewrite Et, app_length, seek_app. cbn [obind fst snd].
      destruct (Z.leb_spec 0 (Z.of_nat (length (fdt_of pre)))); [|lia]. destruct (Z.leb_spec (Z.of_nat (length (fdt_of pre))) (Z.of_nat (length (fdt_of pre) + length (fst d)))); [|lia]. destruct (Z.leb_spec (Z.of_nat (length (fdt_of pre) + length (fst d))) (Z.of_nat (length (fdt_of pre) + length (fst d)))); [|lia]. cbn [andb].
      replace (Z.to_nat (Z.of_nat (length (fdt_of pre) + length (fst d)) - Z.of_nat (length (fdt_of pre)))) with (length (fst d)) by lia. rewrite firstn_all, fdt_app, fdx_app. change (fdt_of [d]) with (fst d ++ []). cbn [copy_docs fdx_of Nat.add]. rewrite !app_nil_r. reflexivity.
    - change (copy_docs (S (length (d2 :: rest)))) with (copy_docs (S (S (length rest)))). set (n := S (length rest)). cbn [copy_docs fdx_of]. rewrite dec_enc_32. unfold n. rewrite dec_enc_64. cbn [obind fst snd]. fold n.
      assert (Hd : doc_ok d) by (rewrite Forall_forall in HF; apply HF; rewrite E; apply in_or_app; right; left; auto). unfold doc_ok in Hd. rewrite (Z.mod_small (snd d)) by lia.
      assert (Et : fdt_of ds = fdt_of pre ++ fst d ++ fdt_of (d2 :: rest)) by (rewrite E, fdt_app; reflexivity).
      assert (Hlen : (length (fdt_of pre) + length (fst d) + length (fdt_of (d2 :: rest)) = length (fdt_of ds))%nat) by (rewrite Et, !app_length; lia).
      rewrite (Z.mod_small (Z.of_nat (length (fdt_of pre) + length (fst d)))) by (split; [lia|]; assert (2 ^ 63 < 2 ^ 64) by reflexivity; lia).
      specialize (IH (pre ++ [d])). rewrite app_length in IH. cbn [length] in IH. replace (Z.of_nat (length pre + 1)) with (Z.of_nat (length pre) + 1) in IH by lia.
      assert (Ep : fdt_of (pre ++ [d]) = fdt_of pre ++ fst d) by (rewrite fdt_app; unfold fdt_of at 2; cbn [map concat]; rewrite app_nil_r; reflexivity). rewrite Ep, app_length, Nat.add_1_r in IH.
      rewrite (live_from_cons del (length pre) d). destruct (del (Z.of_nat (length pre))); cbn [app].
      + apply (IH acc d2). rewrite E, <- app_assoc. reflexivity.
      + destruct (Z.leb_spec 0 (Z.of_nat (length (fdt_of pre)))); [|lia]. destruct (Z.leb_spec (Z.of_nat (length (fdt_of pre))) (Z.of_nat (length (fdt_of pre) + length (fst d)))); [|lia]. destruct (Z.leb_spec (Z.of_nat (length (fdt_of pre) + length (fst d))) (Z.of_nat (length (fdt_of ds)))); [|lia]. cbn [andb].
        replace (Z.to_nat (Z.of_nat (length (fdt_of pre) + length (fst d)) - Z.of_nat (length (fdt_of pre)))) with (length (fst d)) by lia.
        replace (firstn (length (fst d)) (seek (fdt_of ds) (Z.of_nat (length (fdt_of pre))))) with (fst d) by (rewrite Et, seek_app, firstn_app, firstn_all, Nat.sub_diag; cbn [firstn]; rewrite app_nil_r; reflexivity).
        specialize (IH (acc ++ [d]) d2). rewrite fdt_app, fdx_app in IH. change (fdt_of [d]) with (fst d ++ []) in IH. rewrite app_nil_r in IH. cbn [fdx_of Nat.add] in IH. rewrite app_nil_r in IH.
        subst n. rewrite IH by (rewrite E, <- app_assoc; reflexivity). rewrite <- !app_assoc. reflexivity.
  Qed.
End SEG.
Notation dsrc := (list doc * option (Z -> bool))%type.
Definition ddel (x : dsrc) : Z -> bool := match snd x with Some f => f | None => fun _ => false end.
Definition dfiles_of (x : dsrc) : dseg := (fdt_of (fst x), fdx_of O (fst x), snd x).
Lemma merge_docs_ok xs : Forall (fun x => Forall doc_ok (fst x) /\ Z.of_nat (length (fdt_of (fst x))) < 2 ^ 63) xs -> forall acc,
  sm_merge_fields (map dfiles_of xs) (fdt_of acc) (fdx_of O acc) = Some (fdt_of (acc ++ flat_map (fun x => live_of (ddel x) (fst x)) xs), fdx_of O (acc ++ flat_map (fun x => live_of (ddel x) (fst x)) xs)).
Proof.
  induction 1 as [|[ds del] xs (H1 & H2) H IH]; intros acc; [cbn [map sm_merge_fields flat_map]; rewrite app_nil_r; reflexivity|]. cbn [map flat_map dfiles_of fst snd sm_merge_fields] in *. rewrite fdx_len. rewrite (Nat.mul_comm 12), Nat.div_mul by lia.
  fold (ddel (ds, del)). destruct ds as [|d ds]; [apply IH|]. cbn [length fdx_of]. rewrite dec_enc_64. change (Z.of_nat 0 mod 2 ^ 64) with 0.
  assert (E : copy_docs (S (length ds)) 0 (ddel (d :: ds, del)) (fdt_of (d :: ds)) (enc_32 (snd d) ++ fdx_of (length (fst d)) ds) 0 (fdt_of acc) (fdx_of O acc) = Some (fdt_of (acc ++ live_of (ddel (d :: ds, del)) (d :: ds)), fdx_of O (acc ++ live_of (ddel (d :: ds, del)) (d :: ds)))) by exact (copy_docs_ok (ddel (d :: ds, del)) (d :: ds) H1 H2 ds [] acc d eq_refl).
  cbn [Nat.add]. change (match del with Some f => f | None => fun _ : Z => false end) with (ddel (d :: ds, del)). rewrite E. cbn [obind fst snd]. rewrite IH, <- !app_assoc. reflexivity.
Qed.
(* what the reader of a document finds (3.. fr_get_doc: the index entry, then the bytes) *)
Lemma read_doc ds j d : Forall doc_ok ds -> Z.of_nat (length (fdt_of ds)) < 2 ^ 63 -> nth_error ds j = Some d ->
  exists off r1 r2, dec_u64 (seek (fdx_of O ds) (Z.of_nat (12 * j))) = ROk off r1 /\ dec_u32 r1 = ROk (snd d) r2 /\ firstn (length (fst d)) (seek (fdt_of ds) off) = fst d.
Proof.
  intros HF HL E. apply nth_error_split in E. destruct E as (pre & post & -> & Hj). subst j. exists (Z.of_nat (length (fdt_of pre))), (enc_32 (snd d) ++ fdx_of (length (fdt_of pre) + length (fst d)) post), (fdx_of (length (fdt_of pre) + length (fst d)) post).
  rewrite fdx_app, <- (fdx_len pre O), seek_app. cbn [Nat.add fdx_of]. rewrite dec_enc_64, dec_enc_32. rewrite fdt_app, seek_app. rewrite fdt_app, app_length in HL.
  assert (Hd : doc_ok d) by (rewrite Forall_forall in HF; apply HF; apply in_or_app; right; left; auto). unfold doc_ok in Hd. rewrite (Z.mod_small (snd d)) by lia. assert (2 ^ 63 < 2 ^ 64) by reflexivity. rewrite Z.mod_small by lia. split; auto. split; auto.
  unfold fdt_of. cbn [map concat]. rewrite firstn_app, firstn_all, Nat.sub_diag. cbn [firstn]. apply app_nil_r.
Qed.
Lemma live_len {A} del (l : list A) : length (live_of del l) = rank del (length l).
Proof.
  unfold live_of, rank. rewrite map_length. generalize O. induction l as [|x l IH]; intros j; [reflexivity|]. cbn [length seq combine filter fst]. destruct (negb (del (Z.of_nat j))); cbn [length]; auto.
Qed.
Lemma live_from_nth {A} del (l : list A) : forall b j x, nth_error l j = Some x -> del (Z.of_nat (b + j)) = false -> nth_error (live_from del b l) (rank del (b + j) - rank del b)%nat = Some x.
Proof.
  induction l as [|y l IH]; intros b j x E Hd; [destruct j; discriminate|]. rewrite live_from_cons. destruct j as [|j]; cbn [nth_error] in E.
  - apply some_inj in E. subst y. rewrite Nat.add_0_r in *. rewrite Hd, Nat.sub_diag. reflexivity.
  - rewrite <- Nat.add_succ_comm in *. pose proof (rank_mono del (S b) (S b + j) ltac:(lia)) as HM. specialize (IH (S b) j x E Hd). rewrite (rank_S del b) in *. destruct (del (Z.of_nat b)); cbn [app].
    + rewrite Nat.add_0_r in *. exact IH.
    + replace (rank del (S b + j) - rank del b)%nat with (S (rank del (S b + j) - (rank del b + 1))) by lia. exact IH.
Qed.
Lemma live_nth {A} del (l : list A) j x : nth_error l j = Some x -> del (Z.of_nat j) = false -> nth_error (live_of del l) (rank del j) = Some x.
Proof. intros E Hd. pose proof (live_from_nth del l O j x E Hd) as H. cbn [Nat.add] in H. change (rank del 0) with O in H. rewrite Nat.sub_0_r in H. exact H. Qed.

(* ---------- norms *)
Lemma copy_norms_ok del : forall n j is, (n <= length is)%nat -> copy_norms n (Z.of_nat j) del is = Some (live_from del j (firstn n is)).
Proof.
  induction n as [|n IH]; intros j is H; [reflexivity|]. destruct is as [|b is]; [cbn in H; lia|]. cbn [copy_norms firstn]. replace (Z.of_nat j + 1) with (Z.of_nat (S j)) by lia. rewrite IH by (cbn in H; lia). cbn [obind]. rewrite live_from_cons. destruct (del (Z.of_nat j)); reflexivity.
Qed.
Lemma live_none {A} (l : list A) : forall j, live_from (fun _ => false) j l = l.
Proof. induction l as [|x l IH]; intros j; [reflexivity|]. rewrite live_from_cons, IH. reflexivity. Qed.
Lemma live_zero del n : forall j, live_from del j (repeat 0 n) = repeat 0 (rank del (j + n) - rank del j).
Proof.
  induction n as [|n IH]; intros j; [rewrite Nat.add_0_r, Nat.sub_diag; reflexivity|]. cbn [repeat]. rewrite live_from_cons, IH, <- Nat.add_succ_comm. pose proof (rank_mono del (S j) (S j + n) ltac:(lia)) as HM. rewrite rank_S in *. destruct (del (Z.of_nat j)); cbn [app].
  - rewrite Nat.add_0_r. reflexivity.
  - replace (rank del (S j + n) - rank del j)%nat with (S (rank del (S j + n) - (rank del j + 1))) by lia. reflexivity.
Qed.
(* the norms of a segment: those of its file, or zero *)
Definition norms_of (x : nseg) : list Z := match fst (fst x) with Some is => is | None => repeat 0 (snd (fst x)) end.
Definition ndel (x : nseg) : Z -> bool := match snd x with Some f => f | None => fun _ => false end.
Lemma merge_norms_ok xs : Forall (fun x : nseg => length (norms_of x) = snd (fst x)) xs -> sm_merge_norms xs = Some (flat_map (fun x => live_of (ndel x) (norms_of x)) xs).
Proof.
  induction 1 as [|[[file m] del] xs H1 H IH]; [reflexivity|]. cbn [sm_merge_norms flat_map]. rewrite IH. unfold norms_of, ndel in *. cbn [fst snd] in *.
  destruct file as [is|], del as [d|]; cbn [obind].
  - change 0 with (Z.of_nat 0) at 1. rewrite (copy_norms_ok d m O is) by lia. cbn [obind]. rewrite <- H1, firstn_all. reflexivity.
  - rewrite <- H1, Nat.ltb_irrefl. cbn [obind]. rewrite firstn_all. change (live_of (fun _ : Z => false) is) with (live_from (fun _ : Z => false) O is). rewrite live_none. reflexivity.
  - change (live_of d (repeat 0 m)) with (live_from d O (repeat 0 m)). rewrite live_zero. pose proof (load_map_ok d m O) as (H2 & _). cbn [Nat.add] in H2. change (Z.of_nat 0) with 0 in H2. change (rank d 0) with O in *. change (Z.of_nat 0) with 0 in H2. cbn [Nat.add]. rewrite Nat.sub_0_r, H2, Nat2Z.id. reflexivity.
  - change (live_of (fun _ : Z => false) (repeat 0 m)) with (live_from (fun _ : Z => false) O (repeat 0 m)). rewrite live_none. reflexivity.
Qed.
