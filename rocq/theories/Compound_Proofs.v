From Verif Require Import Util Codec_Model Codec_Spec Codec_Proofs Stream_Model Stream_Spec Stream_Proofs
  Compound_Model Compound_Spec.
Open Scope nat_scope.

Lemma pwrite_mid (P X Y C : list Z) : length X = length Y ->
  pwrite (P ++ X ++ C) (length P) Y = P ++ Y ++ C.
Proof.
  intros Hl. destruct Y as [|y Y].
  - destruct X; [reflexivity|discriminate].
  - unfold pwrite. rewrite app_length.
    replace (length P - (length P + length (X ++ C))) with 0 by lia. cbn [repeat].
    rewrite app_nil_r, firstn_app_exact. f_equal. f_equal.
    rewrite <- Hl. rewrite app_assoc. rewrite <- app_length. rewrite skipn_app_exact. reflexivity.
Qed.

Lemma pwrite_end (P Y : list Z) : pwrite P (length P) Y = P ++ Y.
Proof.
  pose proof (pwrite_mid P [] Y []) as H. destruct Y as [|y Y]; [rewrite app_nil_r; reflexivity|].
  unfold pwrite. rewrite Nat.sub_diag. cbn [repeat]. rewrite app_nil_r, firstn_all.
  rewrite skipn_all2 by lia. rewrite app_nil_r. reflexivity.
Qed.

Fixpoint dir_bytes (l : list (Z * list Z)) : option (list Z) :=
  match l with
  | [] => Some []
  | (o, n) :: t => do s <- enc_str n; do r <- dir_bytes t; Some (enc_64 o ++ s ++ r)
  end.
(* positions of the entries *)
Fixpoint dir_offs (start : nat) (names : list (list Z)) : list nat :=
  match names with
  | [] => []
  | n :: t => start :: dir_offs (start + 8 + length (match enc_str n with Some s => s | None => [] end)) t
  end.
Fixpoint data_offs (start : nat) (cs : list (list Z)) : list nat :=
  match cs with [] => [] | c :: t => start :: data_offs (start + length c) t end.

Section W.
  Variable BO : Type.
  Variable flush_i : BO -> list Z -> option BO.
  Variable oseek_i : BO -> nat -> BO.
  Variable holds : BO -> list Z -> nat -> Prop.
  Variable okpos : list Z -> nat -> Prop.
  Hypothesis flush_ok : forall b f p bs, holds b f p -> okpos f p -> length bs <= BUFFER_SIZE ->
    exists b', flush_i b bs = Some b' /\ holds b' (pwrite f p bs) (p + length bs).
  Hypothesis seek_ok : forall b f p q, holds b f p -> okpos f q -> holds (oseek_i b q) f q.
  Hypothesis okpos_write : forall f p bs, okpos f p -> okpos (pwrite f p bs) (p + length bs).
  Hypothesis okpos_within : forall f p, p <= length f -> okpos f p.

  Variable BI : Type.
  Variable length_i : BI -> nat.
  Variable read_i : BI -> nat -> nat -> res (list Z) * BI.
  Variable iseek_i : BI -> nat -> BI.
  Variable I : list Z -> BI -> nat -> Prop.
  Hypothesis H_len : forall f b p, I f b p -> length_i b = length f.
  Hypothesis H_read : forall f b p n, I f b p -> p + n <= length f ->
    exists b', read_i b p n = (Ok (firstn n (skipn p f)), b') /\ I f b' (p + n).
  Hypothesis H_seek : forall f b p q, I f b p -> I f (iseek_i b q) q.

  Notation rep := (rep BO holds okpos).

  Lemma no_past f : forall b p n, I f b p -> length f < p + n ->
    match (fun _ : nat => @UB (list Z)) n with
    | Ok d => exists b', read_i b p n = (Ok d, b') /\ I f b' (p + n)
    | Err => exists b', read_i b p n = (Err, b') /\ forall q, I f b' q
    | UB => True
    end.
  Proof. intros; exact Logic.I. Qed.

  Lemma copy_loop_ok f fuel : forall is p os d q, inv BI f (I f) is p -> rep os d q ->
    p <= length f -> length f - p < fuel ->
    exists os', copy_loop BO flush_i BI read_i iseek_i fuel is os (length f - p) = Some os' /\
      rep os' (pwrite d q (skipn p f)) (q + (length f - p)).
  Proof.
    induction fuel as [|fuel IH]; intros is p os d q Hi Hr Hp Hf; [lia|]. cbn [copy_loop].
    destruct (Nat.ltb_spec 0 (length f - p)) as [H0|H0].
    - pose proof BS_pos as HB. set (len := Nat.min (length f - p) BUFFER_SIZE).
      pose proof (is_read_bytes_ok BI length_i read_i iseek_i f (I f) (fun _ => UB) (H_len f) (H_read f)
                   (no_past f) (H_seek f) is p len Hi) as HR.
      destruct (Nat.leb_spec (p + len) (length f)) as [_|Hc]; [|lia].
      destruct HR as (is' & -> & Hi').
      destruct (rep_bytes BO flush_i oseek_i holds okpos flush_ok seek_ok okpos_write os d q
                  (firstn len (skipn p f)) Hr) as (os1 & E1 & Hr1).
      rewrite E1; cbn [obind].
      assert (El : length (firstn len (skipn p f)) = len).
      { rewrite firstn_length, skipn_length. lia. }
      replace (length f - p - len) with (length f - (p + len)) by lia.
      destruct (IH is' (p + len) os1 _ _ Hi' Hr1) as (os' & E' & Hr'); [lia|lia|].
      exists os'; split; [exact E'|].
      rewrite pwrite_app in Hr'. rewrite El in Hr'.
      rewrite <- skipn_skipn', firstn_skipn in Hr'.
      replace (q + (length f - p)) with (q + len + (length f - (p + len))) by lia. exact Hr'.
    - exists os; split; [reflexivity|]. rewrite skipn_all2 by lia. cbn [pwrite].
      replace (q + (length f - p)) with q by lia. exact Hr.
  Qed.

  Lemma cw_copy_ok f is os d : inv BI f (I f) is 0 -> rep os d (length d) ->
    exists os', cw_copy_file BO flush_i BI length_i read_i iseek_i is os = Some os' /\
      rep os' (d ++ f) (length (d ++ f)).
  Proof.
    intros Hi Hr. unfold cw_copy_file.
    destruct (inv_ready _ _ _ is 0 Hi) as (q0 & HI0).
    rewrite (H_len _ _ _ HI0).
    destruct (copy_loop_ok f (S (length f)) is 0 os d (length d) Hi Hr) as (os' & E & Hr'); [lia|lia|].
    rewrite Nat.sub_0_r in *. rewrite E; cbn [obind]. cbn [skipn] in Hr'.
    rewrite pwrite_end in Hr'.
    rewrite (rep_pos _ _ _ _ _ _ Hr'), (rep_pos _ _ _ _ _ _ Hr).
    destruct (Nat.eqb_spec (length d + length f - length d) (length f)); [|lia].
    exists os'; split; [reflexivity|]. rewrite app_length. exact Hr'.
  Qed.

  Lemma cw_data_ok : forall srcs cs os d, Forall2 (fun is c => inv BI c (I c) is 0) srcs cs ->
    rep os d (length d) ->
    exists os', cw_data BO flush_i BI length_i read_i iseek_i os srcs = Some (os', data_offs (length d) cs) /\
      rep os' (d ++ concat cs) (length (d ++ concat cs)).
  Proof.
    intros srcs cs os d Hs; revert os d; induction Hs as [|is c srcs cs Hc Hs IH]; intros os d Hr;
      cbn [cw_data concat data_offs].
    - exists os. rewrite app_nil_r. auto.
    - destruct (cw_copy_ok c is os d Hc Hr) as (os1 & E1 & Hr1). rewrite E1; cbn [obind].
      destruct (IH os1 (d ++ c) Hr1) as (os' & E' & Hr'). rewrite E'; cbn [obind fst snd].
      exists os'. rewrite (rep_pos _ _ _ _ _ _ Hr). rewrite app_length.
      rewrite <- app_assoc in Hr'. auto.
  Qed.

  Lemma write_64_ok os d q v : rep os d q -> exists os', os_write_64 BO flush_i os v = Some os' /\
    rep os' (pwrite d q (enc_64 v)) (q + 8).
  Proof.
    intros Hr. destruct (rep_each_checked BO flush_i oseek_i holds okpos flush_ok seek_ok okpos_write
      (enc_64 v) os d q Hr) as (os' & E & Hr'). { apply enc_64_bytes. }
    exists os'; split; [exact E|]. exact Hr'.
  Qed.

  Lemma write_string_ok os d q n s : rep os d q -> enc_str n = Some s ->
    exists os', os_write_string BO flush_i os n = Some os' /\ rep os' (pwrite d q s) (q + length s).
  Proof.
    intros Hr Es.
    destruct (rep_step BO flush_i oseek_i holds okpos flush_ok seek_ok okpos_write os d q (OString n)
      (put (mkOf d q) s) Hr) as (os' & E & Hr').
    - cbn [ideal_step op_bytes]. rewrite Es. reflexivity.
    - exact Logic.I.
    - exists os'; split; [exact E|]. rewrite put_pwrite in Hr'.
      assert (Ep : f_pos (put (mkOf d q) s) = q + length s) by (destruct s; cbn; lia).
      rewrite Ep in Hr'. exact Hr'.
  Qed.

  Lemma cw_dir_ok : forall names os d db, rep os d (length d) ->
    dir_bytes (map (fun n => (0%Z, n)) names) = Some db ->
    exists os', cw_dir BO flush_i os names = Some (os', dir_offs (length d) names) /\
      rep os' (d ++ db) (length (d ++ db)).
  Proof.
    induction names as [|n names IH]; intros os d db Hr Hd; cbn [cw_dir map dir_bytes dir_offs] in *.
    - injection Hd as <-. exists os. rewrite app_nil_r. auto.
    - apply obind_some in Hd. destruct Hd as (s & Es & Hd).
      apply obind_some in Hd. destruct Hd as (r & Er & E). apply some_inj in E. subst db.
      destruct (write_64_ok os d (length d) 0%Z Hr) as (os1 & E1 & Hr1). rewrite E1; cbn [obind].
      rewrite pwrite_end in Hr1.
      assert (L1 : length d + 8 = length (d ++ enc_64 0)) by (rewrite app_length; reflexivity).
      rewrite L1 in Hr1.
      destruct (write_string_ok os1 _ _ n s Hr1 Es) as (os2 & E2 & Hr2). rewrite E2; cbn [obind].
      rewrite pwrite_end, <- app_length in Hr2.
      destruct (IH os2 _ r Hr2 Er) as (os' & E' & Hr'). rewrite E'; cbn [obind fst snd].
      exists os'. rewrite (rep_pos _ _ _ _ _ _ Hr), Es.
      replace (length ((d ++ enc_64 0) ++ s)) with (length d + 8 + length s)
        by (rewrite !app_length; reflexivity).
      rewrite <- !app_assoc in Hr'. auto.
  Qed.

  Lemma cw_patch_ok : forall names olds news P C os q db db',
    length olds = length names -> length news = length names ->
    dir_bytes (combine olds names) = Some db ->
    dir_bytes (combine (map Z.of_nat news) names) = Some db' ->
    rep os (P ++ db ++ C) q ->
    exists os' q', cw_patch BO flush_i oseek_i os (combine (dir_offs (length P) names) news) = Some os' /\
      rep os' (P ++ db' ++ C) q' /\ length db' = length db.
  Proof.
    induction names as [|n names IH]; intros olds news P C os q db db' Ho Hn Hd Hd' Hr.
    - destruct olds; [|discriminate]. destruct news; [|discriminate].
      cbn in *. injection Hd as <-. injection Hd' as <-. exists os, q. auto.
    - destruct olds as [|o olds]; [discriminate|]. destruct news as [|w news]; [discriminate|].
      cbn [combine map dir_bytes dir_offs cw_patch] in *.
      apply obind_some in Hd. destruct Hd as (s & Es & Hd).
      apply obind_some in Hd. destruct Hd as (r & Er & E). apply some_inj in E. subst db.
      apply obind_some in Hd'. destruct Hd' as (s' & Es' & Hd').
      apply obind_some in Hd'. destruct Hd' as (r' & Er' & E). apply some_inj in E. subst db'.
      assert (s' = s) by congruence; subst s'.
      destruct (rep_seek BO flush_i oseek_i holds okpos flush_ok seek_ok okpos_write os _ q (length P) Hr)
        as (os1 & E1 & Hr1).
      { apply okpos_within. rewrite app_length. lia. }
      rewrite E1; cbn [obind].
      destruct (write_64_ok os1 _ _ (Z.of_nat w) Hr1) as (os2 & E2 & Hr2). rewrite E2; cbn [obind].
      rewrite <- app_assoc in Hr2. rewrite pwrite_mid in Hr2 by reflexivity.
      assert (EA : P ++ enc_64 (Z.of_nat w) ++ (s ++ r) ++ C
                   = (P ++ enc_64 (Z.of_nat w) ++ s) ++ r ++ C) by (rewrite <- !app_assoc; reflexivity).
      rewrite EA in Hr2.
      destruct (IH olds news _ C os2 _ r r' ltac:(cbn in *; lia) ltac:(cbn in *; lia) Er Er' Hr2) as (os' & q' & E' & Hr' & El).
      rewrite Es. 
      replace (length P + 8 + length s) with (length (P ++ enc_64 (Z.of_nat w) ++ s))
        by (rewrite !app_length; cbn [enc_64 length]; lia).
      exists os', q'. split; [exact E'|]. split.
      + rewrite <- !app_assoc in Hr'. rewrite <- !app_assoc. exact Hr'.
      + rewrite !app_length, El. reflexivity.
  Qed.

  Definition layout (names cs : list (list Z)) (F : list Z) : Prop :=
    exists v db, enc_vint (Z.of_nat (length names)) = Some v /\
      dir_bytes (combine (map Z.of_nat (data_offs (length v + length db) cs)) names) = Some db /\
      F = v ++ db ++ concat cs.

  Lemma dir_bytes_some l : Forall (fun x => byte_string (snd x)) l -> exists db, dir_bytes l = Some db.
  Proof.
    induction 1 as [|[o n] l Hx Hl IH]; cbn [dir_bytes]; [eauto|].
    destruct (str_roundtrips n Hx) as (s & -> & _). cbn [obind].
    destruct IH as (db & ->). cbn [obind]. eauto.
  Qed.

  Lemma data_offs_length s cs : length (data_offs s cs) = length cs.
  Proof. revert s; induction cs; intros; cbn; auto. Qed.

  Lemma combine_map_zero (names : list (list Z)) :
    map (fun n => (0%Z, n)) names = combine (repeat 0%Z (length names)) names.
  Proof. induction names; cbn; congruence. Qed.

  Lemma Forall_combine_r {A C} (P : C -> Prop) (l : list A) (m : list C) :
    Forall P m -> Forall (fun x => P (snd x)) (combine l m).
  Proof.
    intros H; revert l; induction H; intros [|a l0]; cbn; constructor; auto.
  Qed.

  Lemma cw_close_ok b members cs : holds b [] 0 -> members <> [] ->
    (Z.of_nat (length members) < 2 ^ 32)%Z ->
    Forall byte_string (map fst members) ->
    Forall2 (fun m c => inv BI c (I c) (snd m) 0) members cs ->
    exists os F q, cw_close BO flush_i oseek_i BI length_i read_i iseek_i b members = Some os /\
      layout (map fst members) cs F /\ holds (o_b os) F q.
  Proof.
    intros Hb Hne Hcnt Hnames Hsrc. unfold cw_close.
    destruct members as [|m0 members0]; [congruence|]. set (members := m0 :: members0) in *.
    assert (Hr0 : rep (os_new b) [] (length (@nil Z))).
    { exists []. cbn [os_new o_b o_start o_buf length pwrite].
      split; [exact Hb|]. split; [apply okpos_within; cbn; lia|]. split; [lia|]. split; reflexivity. }
    destruct (vint_roundtrips (Z.of_nat (length members))) as (v & Ev & _); [unfold u32; lia|].
    destruct (rep_vint BO flush_i oseek_i holds okpos flush_ok seek_ok okpos_write _ _ _ _ v Hr0 Ev)
      as (os1 & E1 & Hr1). rewrite E1; cbn [obind].
    rewrite (pwrite_end [] v) in Hr1. cbn [app length Nat.add] in Hr1.
    set (names := map fst members) in *.
    destruct (dir_bytes_some (map (fun n => (0%Z, n)) names)) as (db & Edb).
    { rewrite combine_map_zero. apply Forall_combine_r. exact Hnames. }
    destruct (cw_dir_ok names os1 v db Hr1 Edb) as (os2 & E2 & Hr2). rewrite E2; cbn [obind fst snd].
    assert (Hsrc' : Forall2 (fun is c => inv BI c (I c) is 0) (map snd members) cs).
    { clear - Hsrc. induction Hsrc; cbn; constructor; auto. }
    destruct (cw_data_ok (map snd members) cs os2 _ Hsrc' Hr2) as (os3 & E3 & Hr3).
    rewrite E3; cbn [obind fst snd].
    assert (Hlc : length cs = length names).
    { subst names. rewrite map_length. symmetry. clear - Hsrc. induction Hsrc; cbn; auto. }
    set (news := data_offs (length (v ++ db)) cs).
    destruct (dir_bytes_some (combine (map Z.of_nat news) names)) as (db' & Edb').
    { apply Forall_combine_r. exact Hnames. }
    rewrite <- app_assoc in Hr3.
    destruct (cw_patch_ok names (repeat 0%Z (length names)) news v (concat cs) os3
      (length (v ++ db ++ concat cs)) db db') as (os4 & q4 & E4 & Hr4 & El).
    - apply repeat_length.
    - subst news. rewrite data_offs_length. exact Hlc.
    - rewrite <- combine_map_zero. exact Edb.
    - exact Edb'.
    - exact Hr3.
    - rewrite E4; cbn [obind].
      destruct (rep_flush BO flush_i oseek_i holds okpos flush_ok seek_ok okpos_write _ _ _ Hr4) as (os5 & E5 & _ & _ & Hh).
      exists os5, (v ++ db' ++ concat cs), q4. split; [exact E5|]. split; [|exact Hh].
      exists v, db'. subst names. rewrite map_length. split; [exact Ev|]. split; [|reflexivity].
      rewrite El. rewrite <- app_length. exact Edb'.
  Qed.
End W.

(* ------------------------------------------------------------ reading the directory *)
Section R.
  Variable B : Type.
  Variable length_i : B -> nat.
  Variable read_i : B -> nat -> nat -> res (list Z) * B.
  Variable seek_i : B -> nat -> B.
  Variable F : list Z.
  Variable I : B -> nat -> Prop.
  Hypothesis H_len : forall b p, I b p -> length_i b = length F.
  Hypothesis H_read : forall b p n, I b p -> p + n <= length F ->
    exists b', read_i b p n = (Ok (firstn n (skipn p F)), b') /\ I b' (p + n).
  Hypothesis H_seek : forall b p q, I b p -> I (seek_i b q) q.

  Lemma no_past' : forall b p n, I b p -> length F < p + n ->
    match (fun _ : nat => @UB (list Z)) n with
    | Ok d => exists b', read_i b p n = (Ok d, b') /\ I b' (p + n)
    | Err => exists b', read_i b p n = (Err, b') /\ forall q, I b' q
    | UB => True
    end.
  Proof. intros; exact Logic.I. Qed.

  Notation inv := (inv B F I).

  Lemma skipn_inj q q' : q <= length F -> q' <= length F -> skipn q F = skipn q' F -> q = q'.
  Proof. intros H1 H2 E. apply (f_equal (@length _)) in E. rewrite !skipn_length in E. lia. Qed.

  Lemma read_dir_ok : forall l db C is p, dir_bytes l = Some db ->
    Forall (fun x => i64 (fst x) /\ byte_string (snd x)) l ->
    inv is p -> skipn p F = db ++ C ->
    exists is' p', read_dir B length_i read_i (length l) is = Some (map (fun x => (snd x, fst x)) l, is') /\
      inv is' p'.
  Proof.
    induction l as [|[o n] l IH]; intros db C is p Hd Hl Hi Hs; cbn [dir_bytes length read_dir map] in *.
    - eauto.
    - apply obind_some in Hd. destruct Hd as (s & Es & Hd).
      apply obind_some in Hd. destruct Hd as (r & Er & E). apply some_inj in E. subst db.
      inversion Hl as [|? ? [Ho Hn] Hl']; subst. cbn [fst snd] in *.
      pose proof (is_read_fixed_ok B length_i read_i seek_i F I (fun _ => UB) H_len H_read no_past' H_seek
                    8 dec_i64 is p Hi (fixed_i64) ltac:(lia)) as HF.
      destruct (i64_roundtrips o Ho) as (bo & Ebo & _ & _ & Dbo). injection Ebo as <-.
      rewrite Hs in HF. rewrite <- app_assoc in HF. rewrite Dbo in HF.
      destruct HF as (q & is1 & -> & Hi1 & Hq & Hpq).
      pose proof (is_read_string_ok B length_i read_i seek_i F I (fun _ => UB) H_len H_read no_past' H_seek
                    is1 q Hi1) as HS.
      destruct (str_roundtrips n Hn) as (s' & Es' & _ & _ & Ds).
      assert (s' = s) by congruence; subst s'.
      rewrite <- Hq in HS. rewrite <- app_assoc in HS. rewrite Ds in HS.
      destruct HS as (q2 & is2 & -> & Hi2 & Hq2 & Hqq).
      destruct (IH r C is2 q2 Er Hl' Hi2 (eq_sym Hq2)) as (is' & p' & -> & Hi').
      cbn [obind fst snd]. eauto.
  Qed.

  Lemma open_ok names cs is : layout names cs F -> inv is 0 ->
    length cs = length names -> Forall byte_string names -> 
    (Z.of_nat (length names) < 2 ^ 31)%Z -> (Z.of_nat (length F) < 2 ^ 63)%Z ->
    exists es is' p, open_cmpd_store B length_i read_i is = Some (es, is') /\ inv is' p /\
      map ce_name es = names /\
      Forall2 (fun e c => (0 <= ce_offset e)%Z /\ (ce_length e = Z.of_nat (length c))%Z /\
                  firstn (length c) (skipn (Z.to_nat (ce_offset e)) F) = c /\
                  Z.to_nat (ce_offset e) + length c <= length F) es cs.
  Proof.
    intros (v & db & Ev & Edb & EF) Hi Hlc Hn Hcnt HFl. unfold open_cmpd_store.
    pose proof (is_read_vint_ok B length_i read_i seek_i F I (fun _ => UB) H_len H_read no_past' H_seek
                  32 is 0 Hi (or_introl eq_refl)) as HV.
    destruct (vint_roundtrips (Z.of_nat (length names))) as (v' & Ev' & _ & _ & Dv).
    { unfold u32. assert (2 ^ 31 < 2 ^ 32)%Z by reflexivity. lia. }
    assert (v' = v) by congruence; subst v'.
    cbn [skipn] in HV. rewrite EF, Dv in HV. rewrite <- EF in HV.
    destruct HV as (q & is1 & -> & Hi1 & Hq & _).
    unfold to_signed. destruct (Z.ltb_spec (Z.of_nat (length names)) (2 ^ (32 - 1))) as [_|Hc];
      [|change (2 ^ (32 - 1))%Z with (2 ^ 31)%Z in Hc; lia].
    rewrite Nat2Z.id.
    set (offs := map Z.of_nat (data_offs (length v + length db) cs)) in *.
    assert (Hlo : length offs = length names).
    { subst offs. rewrite map_length, data_offs_length. exact Hlc. }
    assert (Hlen : length (combine offs names) = length names).
    { rewrite combine_length. lia. }
    assert (Hoffs : Forall (fun o => (0 <= o <= Z.of_nat (length F))%Z) offs).
    { subst offs. rewrite EF. clear. 
      apply Forall_forall. intros o Ho. apply in_map_iff in Ho. destruct Ho as (k & <- & Hk).
      rewrite !app_length. rewrite Nat.add_assoc.
      assert (forall cs s, In k (data_offs s cs) -> k <= s + length (concat cs)) as H.
      { clear. induction cs as [|c cs IH]; cbn; intros s; [tauto|].
        intros [->|H]; [lia|]. apply IH in H. rewrite app_length. lia. }
      apply H in Hk. lia. }
    destruct (read_dir_ok (combine offs names) db (concat cs) is1 q Edb) as (is2 & p2 & E2 & Hi2); auto.
    { clear - Hoffs Hn HFl. revert names Hn; induction Hoffs as [|o offs Ho Hoffs IH]; intros [|n names] Hn;
        cbn [combine]; constructor; cbn [fst snd].
      - inversion Hn; subst. split; [|auto]. unfold i64. lia.
      - inversion Hn; subst. auto. }
    rewrite Hlen in E2. rewrite E2; cbn [obind fst snd].
    destruct (inv_ready _ _ _ is2 p2 Hi2) as (q0 & HI0).
    rewrite (H_len _ _ HI0).
    eexists; exists is2, p2. split; [reflexivity|]. split; [exact Hi2|].
    clear E2 Hi1 Hi2 Hi Hq HI0 Edb Ev Hoffs Dv Ev' Hcnt Hlen HFl.
    subst offs. set (start := length v + length db) in *.
    assert (HG : forall cs names s (P : list Z), length cs = length names -> length P = s ->
      F = P ++ concat cs ->
      let es := set_lengths (map (fun x => (snd x, fst x)) (combine (map Z.of_nat (data_offs s cs)) names)) (Z.of_nat (length F)) in
      map ce_name es = names /\
      Forall2 (fun e c => (0 <= ce_offset e)%Z /\ (ce_length e = Z.of_nat (length c))%Z /\
                  firstn (length c) (skipn (Z.to_nat (ce_offset e)) F) = c /\
                  Z.to_nat (ce_offset e) + length c <= length F) es cs).
    { clear. induction cs as [|c cs IH]; intros [|n names] s P Hl HP HF; try discriminate.
      - cbn. auto.
      - cbn [data_offs map combine set_lengths fst snd].
        cbn [concat] in HF. rewrite app_assoc in HF.
        assert (Hl' : length cs = length names) by (cbn in Hl; lia).
        assert (HP' : length (P ++ c) = s + length c) by (rewrite app_length; lia).
        destruct (IH names (s + length c) (P ++ c) Hl' HP' HF) as (IHn & IHf).
        cbn [ce_name]. split; [f_equal; exact IHn|].
        constructor; [|exact IHf]. cbn [ce_offset ce_length].
        assert (HFl : length F = s + length c + length (concat cs)) by (rewrite HF, !app_length; lia).
        split; [lia|]. split; [|split].
        + destruct cs as [|c' cs]; [|destruct names as [|n' names]; [discriminate|]].
          * destruct names; [|discriminate]. cbn. cbn in HFl. lia.
          * cbn. lia.
        + rewrite Nat2Z.id. rewrite HF. rewrite <- app_assoc. rewrite <- HP.
          rewrite skipn_app_exact, firstn_app_exact. reflexivity.
        + rewrite Nat2Z.id. lia. }
    apply (HG cs names start (v ++ db)); auto.
    - subst start. apply app_length.
    - rewrite <- app_assoc. exact EF.
  Qed.

  (* ---------------------------------------------------------- member streams *)
  Section Member.
    Variable offset len : nat.
    Hypothesis Hfit : offset + len <= length F.
    Let c := firstn len (skipn offset F).
    Definition J (b : istream B) (_ : nat) : Prop := exists q, inv b q.

    Lemma c_length : length c = len.
    Proof. subst c. rewrite firstn_length, skipn_length. lia. Qed.

    Lemma c_slice p n : p + n <= len -> firstn n (skipn p c) = firstn n (skipn (offset + p) F).
    Proof.
      intros H. subst c. rewrite skipn_firstn_comm, firstn_firstn, skipn_skipn'.
      f_equal. lia.
    Qed.

    Lemma J_len b p : J b p -> cmpdi_length_i B len b = length c.
    Proof. intros _. rewrite c_length. reflexivity. Qed.

    Lemma J_read b p n : J b p -> p + n <= length c ->
      exists b', cmpdi_read_i B read_i seek_i offset len b p n = (Ok (firstn n (skipn p c)), b') /\ J b' (p + n).
    Proof.
      intros (q & Hq) Hn. rewrite c_length in Hn. unfold cmpdi_read_i.
      destruct (Nat.ltb_spec len (p + n)); [lia|].
      pose proof (is_seek_ok B length_i read_i seek_i F I (fun _ => UB) H_len H_read no_past' H_seek b q (offset + p) Hq) as Hs.
      pose proof (is_read_bytes_ok B length_i read_i seek_i F I (fun _ => UB) H_len H_read no_past' H_seek _ (offset + p) n Hs) as HR.
      destruct (Nat.leb_spec (offset + p + n) (length F)); [|lia].
      destruct HR as (b' & -> & Hb'). exists b'. rewrite c_slice by lia.
      split; [reflexivity|]. exists (offset + p + n). exact Hb'.
    Qed.

    Lemma J_past b p n : J b p -> length c < p + n ->
      match cmpd_past n with
      | Ok d => exists b', cmpdi_read_i B read_i seek_i offset len b p n = (Ok d, b') /\ J b' (p + n)
      | Err => exists b', cmpdi_read_i B read_i seek_i offset len b p n = (Err, b') /\ forall q, J b' q
      | UB => True
      end.
    Proof.
      intros (q & Hq) Hn. rewrite c_length in Hn. cbn [cmpd_past]. unfold cmpdi_read_i.
      destruct (Nat.ltb_spec len (p + n)); [|lia]. exists b. split; [reflexivity|]. intros; exists q; exact Hq.
    Qed.

    Lemma J_seek b p q : J b p -> J (cmpdi_seek_i B b q) q.
    Proof. intros H. exact H. Qed.

    Lemma member_step b m p o : Stream_Proofs.inv (istream B) c J (plug B b m) p ->
      match ideal_read cmpd_past c p o with
      | (UB, _) => True
      | (x, q) => exists b' m', mstep B read_i seek_i b (mkMem offset len m) o = (x, (b', mkMem offset len m')) /\
                    Stream_Proofs.inv (istream B) c J (plug B b' m') q
      end.
    Proof.
      intros Hi.
      pose proof (istep_ok (istream B) (cmpdi_length_i B len) (cmpdi_read_i B read_i seek_i offset len)
        (cmpdi_seek_i B) c J cmpd_past J_len J_read J_past J_seek (plug B b m) p o Hi) as HS.
      unfold mstep. cbn [m_len m_off m_is].
      destruct (ideal_read cmpd_past c p o) as [[x| |] q]; auto;
        destruct HS as (s' & -> & Hi'); exists (i_b s'), (unplug B s'); (split; [reflexivity|]);
        destruct s'; exact Hi'.
    Qed.
  End Member.

  (* local part of a member's invariant *)
  Lemma plug_rebase b b' m c p : Stream_Proofs.inv (istream B) c J (plug B b m) p -> (exists q, inv b' q) ->
    Stream_Proofs.inv (istream B) c J (plug B b' m) p.
  Proof.
    intros (E & Hc) HJ. split; [exact E|].
    destruct Hc as [(len & H1 & H2 & H3 & H4 & H5 & _)|(H1 & _)].
    - left. exists len. repeat split; auto.
    - right. split; [exact H1|exact HJ].
  Qed.

  Definition member_ok (b : istream B) (m : member) (cp : list Z * nat) : Prop :=
    m_off m + m_len m <= length F /\ fst cp = firstn (m_len m) (skipn (m_off m) F) /\
    Stream_Proofs.inv (istream B) (fst cp) J (plug B b (m_is m)) (snd cp).

  Lemma Forall2_nth_error {A C} (R : A -> C -> Prop) l m k :
    Forall2 R l m -> match nth_error l k, nth_error m k with
                     | Some a, Some c => R a c | None, None => True | _, _ => False end.
  Proof.
    intros H; revert k; induction H as [|a c l m Hac H IH]; intros [|k]; cbn; auto. apply IH.
  Qed.
  Lemma Forall2_upd {A C} (R : A -> C -> Prop) l m k a c :
    Forall2 R l m -> R a c -> Forall2 R (upd l k a) (upd m k c).
  Proof.
    intros H Hac; revert k; induction H; intros [|k]; cbn; constructor; auto.
  Qed.
  Lemma Forall2_impl' {A C} (R S : A -> C -> Prop) l m :
    (forall a c, R a c -> S a c) -> Forall2 R l m -> Forall2 S l m.
  Proof. induction 2; constructor; auto. Qed.

  Lemma mrun_ok ops : forall b ms cs, (exists q, inv b q) -> Forall2 (member_ok b) ms cs ->
    agree_until_ub (ideal_members cs ops) (mrun B read_i seek_i b ms ops).
  Proof.
    induction ops as [|[k o] ops IH]; intros b ms cs HJ HF; cbn [ideal_members mrun].
    - constructor.
    - pose proof (Forall2_nth_error _ _ _ k HF) as Hk.
      destruct (nth_error ms k) as [m|], (nth_error cs k) as [[c p]|]; try contradiction; [|apply IH; auto].
      destruct Hk as (Hfit & Ec & Hi). cbn [fst snd] in *. destruct m as [off len m]. cbn [m_off m_len m_is] in *.
      subst c. pose proof (member_step off len Hfit b m p o Hi) as HS.
      destruct (ideal_read cmpd_past (firstn len (skipn off F)) p o) as [[x| |] q] eqn:ER; [| |constructor].
      + destruct HS as (b' & m' & -> & Hi'). constructor.
        assert (HJ' : exists q, inv b' q).
        { destruct Hi' as (_ & [(l & _ & _ & _ & _ & _ & H)|(_ & H)]); exact H. }
        apply IH; [exact HJ'|]. apply Forall2_upd.
        * eapply Forall2_impl'; [|exact HF]. intros a cp (H1 & H2 & H3). split; [exact H1|]. split; [exact H2|].
          eapply plug_rebase; eauto.
        * split; [exact Hfit|]. split; [reflexivity|]. exact Hi'.
      + destruct HS as (b' & m' & -> & Hi'). constructor.
        assert (HJ' : exists q, inv b' q).
        { destruct Hi' as (_ & [(l & _ & _ & _ & _ & _ & H)|(_ & H)]); exact H. }
        apply IH; [exact HJ'|]. apply Forall2_upd.
        * eapply Forall2_impl'; [|exact HF]. intros a cp (H1 & H2 & H3). split; [exact H1|]. split; [exact H2|].
          eapply plug_rebase; eauto.
        * split; [exact Hfit|]. split; [reflexivity|]. exact Hi'.
  Qed.

  Lemma members_ok es cs b : (exists q, inv b q) ->
    Forall2 (fun e c => (0 <= ce_offset e)%Z /\ (ce_length e = Z.of_nat (length c))%Z /\
                  firstn (length c) (skipn (Z.to_nat (ce_offset e)) F) = c /\
                  Z.to_nat (ce_offset e) + length c <= length F) es cs ->
    Forall2 (member_ok b) (map new_member es) (map (fun c => (c, 0)) cs).
  Proof.
    intros HJ H. induction H as [|e c es cs (H1 & H2 & H3 & H4) H IH]; cbn [map]; constructor; auto.
    unfold member_ok, new_member. cbn [m_off m_len m_is fst snd].
    rewrite H2, Nat2Z.id. split; [exact H4|]. split; [symmetry; exact H3|].
    split; [reflexivity|]. right. split; [cbn; lia|exact HJ].
  Qed.
End R.

(* ------------------------------------------------------------ whole life cycle, both stores *)
Lemma enc_v_len fuel num bs : enc_v fuel num = Some bs -> length bs <= fuel.
Proof.
  revert num bs; induction fuel as [|fuel IH]; intros num bs H; [discriminate|].
  cbn [enc_v] in H. destruct (num >? 127)%Z.
  - apply obind_some in H. destruct H as (r & Hr & E). injection E as <-.
    apply IH in Hr. cbn; lia.
  - injection H as <-. cbn; lia.
Qed.

Lemma layout_length names cs F : layout names cs F -> length cs = length names ->
  Forall byte_string names ->
  length F <= 10 + list_sum (map (fun n => 18 + length n) names) + length (concat cs).
Proof.
  intros (v & db & Ev & Edb & ->) Hl Hn. rewrite !app_length.
  pose proof (enc_v_len _ _ _ Ev) as Hv. unfold VINT_MAX_LEN in Hv.
  assert (length db <= list_sum (map (fun n => 18 + length n) names)); [|lia].
  clear Ev Hv Hl. revert Edb. generalize (map Z.of_nat (data_offs (length v + length db) cs)) as offs.
  revert db. induction names as [|n names IH]; intros db [|o offs] Hd; cbn [combine dir_bytes map list_sum] in *;
    try (injection Hd as <-; cbn; lia).
  inversion Hn; subst.
  apply obind_some in Hd. destruct Hd as (s & Es & Hd).
  apply obind_some in Hd. destruct Hd as (r & Er & E). apply some_inj in E. subst db.
  rewrite !app_length. specialize (IH H2 r offs Er).
  assert (length s <= 10 + length n).
  { unfold enc_str in Es. apply obind_some in Es. destruct Es as (l & El & E). apply some_inj in E. subst s.
    apply enc_v_len in El. unfold VINT_MAX_LEN in El. rewrite app_length. lia. }
  change (length (enc_64 o)) with 8. change (list_sum (18 + length n :: map (fun n0 => 18 + length n0) names))
    with (18 + length n + list_sum (map (fun n0 => 18 + length n0) names)). lia.
Qed.

Lemma packable_bound ms : packable ms ->
  (Z.of_nat (10 + list_sum (map (fun n => 18 + length n)%nat (map fst ms)) + length (concat (map snd ms))) < 2 ^ 63)%Z.
Proof.
  intros (Hne & _ & _ & _ & Hsz).
  assert (list_sum (map (fun n => 18 + length n) (map fst ms)) + length (concat (map snd ms))
          <= list_sum (map (fun m => 28 + length (fst m) + length (snd m)) ms)).
  { clear. induction ms as [|[n c] ms IH]; [cbn; lia|].
    cbn [map concat fst snd list_sum fold_right] in *. rewrite app_length.
    unfold list_sum in *. lia. }
  assert (2 ^ 62 + 10 < 2 ^ 63)%Z by reflexivity. lia.
Qed.

Lemma packable_names ms : packable ms -> Forall byte_string (map fst ms).
Proof.
  intros (_ & _ & _ & H & _). induction H; cbn; constructor; auto.
Qed.

Lemma fs_I_read f (b : fsfile) p n : fs_data b = f -> p + n <= length f ->
  exists b', fsi_read_i b p n = (Ok (firstn n (skipn p f)), b') /\ fs_data b' = f.
Proof.
  intros <- Hle. unfold fsi_read_i. rewrite firstn_length, skipn_length.
  destruct (Nat.eqb_spec (Nat.min n (length (fs_data b) - p)) n); [|lia].
  eexists; split; reflexivity.
Qed.

Lemma fs_compound ms : packable ms ->
  exists os es is', 
    cw_close fsfile fso_flush_i fso_seek_i fsfile fsi_length_i fsi_read_i fsi_seek_i (mkFs [] 0)
      (map (fun m => (fst m, fs_open_input (snd m))) ms) = Some os /\
    open_cmpd_store fsfile fsi_length_i fsi_read_i (fs_open_input (fs_data (o_b os))) = Some (es, is') /\
    map ce_name es = map fst ms /\
    map ce_length es = map (fun m => Z.of_nat (length (snd m))) ms /\
    forall ops, agree_until_ub (ideal_members (map (fun m => (snd m, 0)) ms) ops)
                  (mrun fsfile fsi_read_i fsi_seek_i is' (map new_member es) ops).
Proof.
  intros Hp. pose proof Hp as (Hne & Hnd & Hcnt & _ & _).
  pose proof (packable_names ms Hp) as Hnames. pose proof (packable_bound ms Hp) as Hb.
  set (If := fun (f : list Z) (b : fsfile) (_ : nat) => fs_data b = f).
  assert (HI_len : forall f b p, If f b p -> fsi_length_i b = length f) by (intros f b p <-; reflexivity).
  assert (HI_read : forall f b p n, If f b p -> p + n <= length f ->
    exists b', fsi_read_i b p n = (Ok (firstn n (skipn p f)), b') /\ If f b' (p + n))
    by (intros f b p n H Hle; apply fs_I_read; auto).
  assert (HI_seek : forall f b p q, If f b p -> If f (fsi_seek_i b q) q) by (intros f b p q <-; reflexivity).
  destruct (cw_close_ok fsfile fso_flush_i fso_seek_i fs_holds (fun _ _ => True) fs_flush_ok fs_seek_ok
    (fun _ _ _ _ => Logic.I) (fun _ _ _ => Logic.I)
    fsfile fsi_length_i fsi_read_i fsi_seek_i If HI_len HI_read HI_seek) with
    (b := mkFs [] 0) (members := map (fun m : list Z * list Z => (fst m, fs_open_input (snd m))) ms)
    (cs := map snd ms) as (os & F & q & E & HL & Hh).
  - split; reflexivity.
  - destruct ms; [congruence|discriminate].
  - rewrite map_length. assert (2 ^ 31 < 2 ^ 32)%Z by reflexivity. lia.
  - rewrite map_map. cbn [fst]. exact Hnames.
  - clear. induction ms as [|[n c] ms IH]; cbn [map]; constructor; auto.
    split; [reflexivity|]. right. split; [cbn; lia|reflexivity].
  - rewrite map_map in HL. cbn [fst] in HL. change (map (fun x : list Z * list Z => fst x) ms) with (map fst ms) in HL.
    destruct Hh as [HF _].
    assert (Hlc : length (map snd ms) = length (map fst ms)) by (rewrite !map_length; reflexivity).
    pose proof (layout_length _ _ _ HL Hlc Hnames) as Hlen.
    destruct (open_ok fsfile fsi_length_i fsi_read_i fsi_seek_i F (If F) (HI_len F) (HI_read F) (HI_seek F)) with
      (names := map fst ms) (cs := map snd ms) (is := fs_open_input F) as (es & is' & p & Eo & Hi & En & Hes); auto.
    + split; [reflexivity|]. right. split; [cbn; lia|reflexivity].
    + rewrite map_length. exact Hcnt.
    + lia.
    + exists os, es, is'. split; [exact E|]. rewrite HF. split; [exact Eo|]. split; [exact En|].
      split.
      { clear - Hes. remember (map snd ms) as cs eqn:Ecs. revert ms Ecs.
        induction Hes as [|e c es cs H Hes IH]; intros [|m ms] Ecs; try discriminate; cbn; auto.
        cbn in Ecs. injection Ecs as -> Ecs. f_equal; [apply H|apply IH; auto]. }
      intros ops. apply (mrun_ok fsfile fsi_length_i fsi_read_i fsi_seek_i F (If F) (HI_len F) (HI_read F) (HI_seek F)).
      * exists p; exact Hi.
      * rewrite <- (map_map snd (fun c => (c, 0))). apply members_ok; auto. exists p; exact Hi.
Qed.

Lemma ram_compound ms srcs : packable ms -> Forall2 (fun m rf => ram_holds rf (snd m)) ms srcs ->
  exists os es is',
    cw_close ramos ramo_flush_i ramo_seek_i ramis rami_length_i rami_read_i rami_seek_i (mkRo rf_new 0)
      (combine (map fst ms) (map ram_open_input srcs)) = Some os /\
    open_cmpd_store ramis rami_length_i rami_read_i (ram_open_input (ro_file (o_b os))) = Some (es, is') /\
    map ce_name es = map fst ms /\
    map ce_length es = map (fun m => Z.of_nat (length (snd m))) ms /\
    forall ops, agree_until_ub (ideal_members (map (fun m => (snd m, 0)) ms) ops)
                  (mrun ramis rami_read_i rami_seek_i is' (map new_member es) ops).
Proof.
  intros Hp Hsrc. pose proof Hp as (Hne & Hnd & Hcnt & _ & _).
  pose proof (packable_names ms Hp) as Hnames. pose proof (packable_bound ms Hp) as Hb.
  set (If := fun (f : list Z) (b : ramis) (p : nat) => ram_holds (ri_file b) f /\ ri_ptr b = p).
  assert (HI_len : forall f b p, If f b p -> rami_length_i b = length f).
  { intros f b p [H _]. apply H. }
  assert (HI_read : forall f b p n, If f b p -> p + n <= length f ->
    exists b', rami_read_i b p n = (Ok (firstn n (skipn p f)), b') /\ If f b' (p + n)).
  { intros f b p n [Hh <-] Hle. unfold rami_read_i. rewrite (rami_loop_ok _ f Hh) by lia.
    eexists; split; [reflexivity|]. split; [exact Hh|reflexivity]. }
  assert (HI_seek : forall f b p q, If f b p -> If f (rami_seek_i b q) q).
  { intros f b p q [Hh _]. split; [exact Hh|reflexivity]. }
  assert (Hls : length ms = length srcs) by (clear - Hsrc; induction Hsrc; cbn; auto).
  assert (Enames : map fst (combine (map fst ms) (map ram_open_input srcs)) = map fst ms).
  { clear - Hls. revert srcs Hls; induction ms as [|m ms IH]; intros [|s srcs] Hl; try discriminate; cbn; auto.
    f_equal. apply IH. cbn in Hl; lia. }
  destruct (cw_close_ok ramos ramo_flush_i ramo_seek_i ram_os_holds within ram_flush_ok ram_seek_ok
    within_write (fun _ _ H => H) ramis rami_length_i rami_read_i rami_seek_i If HI_len HI_read HI_seek) with
    (b := mkRo rf_new 0) (members := combine (map fst ms) (map ram_open_input srcs))
    (cs := map snd ms) as (os & F & q & E & HL & Hh).
  - split; [exact ram_holds_new|reflexivity].
  - destruct ms; [congruence|]. destruct srcs; [discriminate|]. discriminate.
  - rewrite combine_length, !map_length, <- Hls, Nat.min_id. assert (2 ^ 31 < 2 ^ 32)%Z by reflexivity. lia.
  - rewrite Enames. exact Hnames.
  - clear - Hsrc. induction Hsrc as [|m rf ms srcs H Hsrc IH]; cbn [map combine]; constructor; auto.
    cbn [snd]. split; [reflexivity|]. right. split; [cbn; lia|]. split; [exact H|reflexivity].
  - rewrite Enames in HL. destruct Hh as [HF _].
    assert (Hlc : length (map snd ms) = length (map fst ms)) by (rewrite !map_length; reflexivity).
    pose proof (layout_length _ _ _ HL Hlc Hnames) as Hlen.
    assert (Hinv0 : Stream_Proofs.inv ramis F (If F) (ram_open_input (ro_file (o_b os))) 0).
    { split; [reflexivity|]. right. split; [cbn; lia|]. split; [exact HF|reflexivity]. }
    destruct (open_ok ramis rami_length_i rami_read_i rami_seek_i F (If F) (HI_len F) (HI_read F) (HI_seek F)) with
      (names := map fst ms) (cs := map snd ms) (is := ram_open_input (ro_file (o_b os)))
      as (es & is' & p & Eo & Hi & En & Hes); auto.
    + rewrite map_length. exact Hcnt.
    + lia.
    + exists os, es, is'. split; [exact E|]. split; [exact Eo|]. split; [exact En|].
      split.
      { clear - Hes. remember (map snd ms) as cs eqn:Ecs. revert ms Ecs.
        induction Hes as [|e c es cs H Hes IH]; intros [|m ms] Ecs; try discriminate; cbn; auto.
        cbn in Ecs. injection Ecs as -> Ecs. f_equal; [apply H|apply IH; auto]. }
      intros ops. apply (mrun_ok ramis rami_length_i rami_read_i rami_seek_i F (If F) (HI_len F) (HI_read F) (HI_seek F)).
      * exists p; exact Hi.
      * rewrite <- (map_map snd (fun c => (c, 0))). apply members_ok; auto. exists p; exact Hi.
Qed.

(* looking a member up by name finds its own entry *)
Lemma cmpd_find_ok es e : NoDup (map ce_name es) -> In e es -> cmpd_find es (ce_name e) = Some e.
Proof.
  intros Hnd Hin. unfold cmpd_find. induction es as [|x es IH]; [destruct Hin|].
  cbn [find map] in *. inversion Hnd as [|? ? Hx Hnd']; subst.
  destruct (list_eq_dec Z.eq_dec (ce_name x) (ce_name e)) as [E|E].
  - destruct Hin as [->|Hin]; [reflexivity|]. exfalso. apply Hx. rewrite E. apply in_map; auto.
  - destruct Hin as [->|Hin]; [congruence|auto].
Qed.

Lemma find_members es (ms : list (list Z * list Z)) : NoDup (map fst ms) -> map ce_name es = map fst ms ->
  map (fun m => cmpd_find es (fst m)) ms = map Some es.
Proof.
  intros Hnd En.
  assert (Hin : forall l l' : list centry, forall ms', incl l' es -> map ce_name l' = map fst ms' ->
            map (fun m : list Z * list Z => cmpd_find es (fst m)) ms' = map Some l').
  { intros _ l'. induction l' as [|e l' IH]; intros [|m ms'] Hi E; try discriminate; [reflexivity|].
    cbn [map] in *. injection E as E1 E2. f_equal.
    - rewrite <- E1. apply cmpd_find_ok; [rewrite En; exact Hnd|]. apply Hi. left; reflexivity.
    - apply IH; auto. intros x Hx; apply Hi; right; exact Hx. }
  apply (Hin es es ms); auto. intros x Hx; exact Hx.
Qed.

Lemma fs_compound_find ms : packable ms ->
  exists os es is' opened,
    cw_close fsfile fso_flush_i fso_seek_i fsfile fsi_length_i fsi_read_i fsi_seek_i (mkFs [] 0)
      (map (fun m => (fst m, fs_open_input (snd m))) ms) = Some os /\
    open_cmpd_store fsfile fsi_length_i fsi_read_i (fs_open_input (fs_data (o_b os))) = Some (es, is') /\
    map ce_name es = map fst ms /\
    map (fun m => cmpd_find es (fst m)) ms = map Some opened /\
    map ce_length opened = map (fun m => Z.of_nat (length (snd m))) ms /\
    forall ops, agree_until_ub (ideal_members (map (fun m => (snd m, 0)) ms) ops)
                  (mrun fsfile fsi_read_i fsi_seek_i is' (map new_member opened) ops).
Proof.
  intros Hp. destruct (fs_compound ms Hp) as (os & es & is' & H1 & H2 & H3 & H4 & H5).
  exists os, es, is', es. repeat (split; [assumption|]). split; [|split; assumption].
  apply find_members; auto. apply Hp.
Qed.

Lemma ram_compound_find ms srcs : packable ms -> Forall2 (fun m rf => ram_holds rf (snd m)) ms srcs ->
  exists os es is' opened,
    cw_close ramos ramo_flush_i ramo_seek_i ramis rami_length_i rami_read_i rami_seek_i (mkRo rf_new 0)
      (combine (map fst ms) (map ram_open_input srcs)) = Some os /\
    open_cmpd_store ramis rami_length_i rami_read_i (ram_open_input (ro_file (o_b os))) = Some (es, is') /\
    map ce_name es = map fst ms /\
    map (fun m => cmpd_find es (fst m)) ms = map Some opened /\
    map ce_length opened = map (fun m => Z.of_nat (length (snd m))) ms /\
    forall ops, agree_until_ub (ideal_members (map (fun m => (snd m, 0)) ms) ops)
                  (mrun ramis rami_read_i rami_seek_i is' (map new_member opened) ops).
Proof.
  intros Hp Hs. destruct (ram_compound ms srcs Hp Hs) as (os & es & is' & H1 & H2 & H3 & H4 & H5).
  exists os, es, is', es. repeat (split; [assumption|]). split; [|split; assumption].
  apply find_members; auto. apply Hp.
Qed.
