From Verif Require Import Util Codec_Model Codec_Spec Codec_Proofs Stream_Model Stream_Spec.
Open Scope nat_scope.

Lemma BS_val : Z.of_nat BUFFER_SIZE = 1024%Z.
Proof. reflexivity. Qed.
Lemma BS_pos : 0 < BUFFER_SIZE.
Proof. pose proof BS_val. lia. Qed.
Lemma VE_val : Z.of_nat VINT_END = 1014%Z.
Proof. reflexivity. Qed.
#[global] Opaque BUFFER_SIZE VINT_END.

(* ------------------------------------------------------------ pwrite *)
Lemma nth_error_repeat {A} (x : A) n i : nth_error (repeat x n) i = if i <? n then Some x else None.
Proof.
  revert i; induction n as [|n IH]; intros i; cbn.
  - destruct i; reflexivity.
  - destruct i; cbn; [reflexivity|]. rewrite IH. reflexivity.
Qed.

Lemma nth_error_app' {A} (a b : list A) i :
  nth_error (a ++ b) i = if i <? length a then nth_error a i else nth_error b (i - length a).
Proof.
  destruct (Nat.ltb_spec i (length a)); [apply nth_error_app1|apply nth_error_app2]; lia.
Qed.

Lemma nth_error_none_ge {A} (l : list A) i : length l <= i -> nth_error l i = None.
Proof. apply nth_error_None. Qed.

Lemma nth_error_pwrite f p bs i : bs <> [] ->
  nth_error (pwrite f p bs) i =
  if i <? p then (if i <? length f then nth_error f i else Some 0%Z)
  else if i <? p + length bs then nth_error bs (i - p) else nth_error f i.
Proof.
  intros Hne. destruct bs as [|b bs]; [congruence|]. unfold pwrite.
  set (l := b :: bs).
  assert (Hfl : length (firstn p (f ++ repeat 0%Z (p - length f))) = p).
  { rewrite firstn_length, app_length, repeat_length. lia. }
  rewrite nth_error_app', Hfl.
  destruct (Nat.ltb_spec i p) as [H1|H1].
  - rewrite nth_error_firstn. destruct (Nat.ltb_spec i p); [|lia].
    rewrite nth_error_app'. destruct (Nat.ltb_spec i (length f)); [reflexivity|].
    rewrite nth_error_repeat. destruct (Nat.ltb_spec (i - length f) (p - length f)); [reflexivity|lia].
  - rewrite nth_error_app'. destruct (Nat.ltb_spec (i - p) (length l)), (Nat.ltb_spec i (p + length l));
      try lia; [reflexivity|].
    rewrite nth_error_skipn. f_equal. lia.
Qed.

Lemma pwrite_length f p bs : bs <> [] -> length (pwrite f p bs) = Nat.max (length f) (p + length bs).
Proof.
  intros Hne. destruct bs as [|b bs]; [congruence|]. unfold pwrite.
  rewrite !app_length, firstn_length, app_length, repeat_length, skipn_length. lia.
Qed.

Lemma list_ext' {A} (a b : list A) : (forall i, nth_error a i = nth_error b i) -> a = b.
Proof.
  revert b; induction a as [|x a IH]; intros [|y b] H; auto.
  - specialize (H 0); discriminate.
  - specialize (H 0); discriminate.
  - pose proof (H 0) as H0. cbn in H0. injection H0 as <-. f_equal. apply IH.
    intro i. apply (H (S i)).
Qed.

Lemma pwrite_app f p a b : pwrite (pwrite f p a) (p + length a) b = pwrite f p (a ++ b).
Proof.
  destruct a as [|x a]; [cbn [pwrite length app]; rewrite Nat.add_0_r; reflexivity|].
  destruct b as [|y b]; [rewrite app_nil_r; reflexivity|].
  assert (Ha : x :: a <> []) by discriminate. assert (Hb : y :: b <> []) by discriminate.
  assert (Hab : (x :: a) ++ y :: b <> []) by discriminate.
  apply list_ext'; intro i.
  rewrite (nth_error_pwrite _ _ (y :: b)) by exact Hb.
  rewrite (nth_error_pwrite _ _ (x :: a)) by exact Ha.
  rewrite (nth_error_pwrite _ _ _ _ Hab).
  rewrite (pwrite_length _ _ _ Ha). rewrite app_length. rewrite nth_error_app'.
  set (la := length (x :: a)) in *. set (lb := length (y :: b)) in *.
  assert (0 < la) by (subst la; cbn; lia).
  destruct (Nat.ltb_spec i p).
  - destruct (Nat.ltb_spec i (p + la)); [|lia].
    destruct (Nat.ltb_spec i (Nat.max (length f) (p + la))); [reflexivity|lia].
  - destruct (Nat.ltb_spec i (p + la)).
    + destruct (Nat.ltb_spec i (Nat.max (length f) (p + la))); [|lia].
      destruct (Nat.ltb_spec i (p + (la + lb))); [|lia].
      destruct (Nat.ltb_spec (i - p) la); [reflexivity|lia].
    + destruct (Nat.ltb_spec i (p + la + lb)), (Nat.ltb_spec i (p + (la + lb))); try lia.
      * destruct (Nat.ltb_spec (i - p) la); [lia|]. f_equal; lia.
      * reflexivity.
Qed.

(* ------------------------------------------------------------ output streams, generic *)
Section Out.
  Variable B : Type.
  Variable flush_i : B -> list Z -> option B.
  Variable seek_i : B -> nat -> B.
  (* the file b holds the bytes f and will write at p *)
  Variable holds : B -> list Z -> nat -> Prop.
  (* positions the file may be written at *)
  Variable okpos : list Z -> nat -> Prop.
  Hypothesis flush_ok : forall b f p bs, holds b f p -> okpos f p -> length bs <= BUFFER_SIZE ->
    exists b', flush_i b bs = Some b' /\ holds b' (pwrite f p bs) (p + length bs).
  Hypothesis seek_ok : forall b f p q, holds b f p -> okpos f q -> holds (seek_i b q) f q.
  Hypothesis okpos_write : forall f p bs, okpos f p -> okpos (pwrite f p bs) (p + length bs).

  (* the stream s represents the ideal file (d, q) *)
  Definition rep (s : ostream B) (d : list Z) (q : nat) : Prop :=
    exists f, holds (o_b s) f (o_start s) /\ okpos f (o_start s) /\
      length (o_buf s) <= BUFFER_SIZE /\
      d = pwrite f (o_start s) (o_buf s) /\ q = o_start s + length (o_buf s).

  Lemma rep_flush s d q : rep s d q -> exists s', os_flush B flush_i s = Some s' /\
    rep s' d q /\ o_buf s' = [] /\ holds (o_b s') d q.
  Proof using flush_ok okpos_write seek_ok.
    intros (f & Hh & Hok & Hl & -> & ->). unfold os_flush.
    destruct (flush_ok _ _ _ _ Hh Hok Hl) as (b' & E & Hh'). rewrite E; cbn [obind].
    eexists; split; [reflexivity|]. split; [|split; [reflexivity|exact Hh']].
    exists (pwrite f (o_start s) (o_buf s)). cbn [o_b o_start o_buf length pwrite].
    repeat split; auto; try lia.
  Qed.

  Lemma rep_okpos s d q : rep s d q -> okpos d q.
  Proof. intros (f & Hh & Hok & Hl & -> & ->). auto. Qed.

  Lemma rep_seek s d q p : rep s d q -> okpos d p ->
    exists s', os_seek B flush_i seek_i s p = Some s' /\ rep s' d p.
  Proof.
    intros Hr Hp. unfold os_seek. destruct (rep_flush _ _ _ Hr) as (s1 & E & _ & Eb & Hh).
    rewrite E; cbn [obind]. eexists; split; [reflexivity|]. rewrite Eb.
    exists d. cbn [o_b o_start o_buf length pwrite]. repeat split; eauto; lia.
  Qed.

  Lemma rep_write_byte s d q b : rep s d q -> length (o_buf s) < BUFFER_SIZE ->
    exists s', write_byte B s b = Some s' /\ rep s' (pwrite d q [uchar b]) (q + 1) /\
      length (o_buf s') = S (length (o_buf s)).
  Proof.
    intros (f & Hh & Hok & Hl & -> & ->) Hlt. unfold write_byte.
    destruct (Nat.ltb_spec (length (o_buf s)) BUFFER_SIZE); [|lia].
    eexists; split; [reflexivity|]. cbn [o_buf]. rewrite app_length; cbn [length].
    split; [|lia]. exists f. cbn [o_b o_start o_buf]. rewrite app_length; cbn [length].
    rewrite pwrite_app. repeat split; auto; lia.
  Qed.

  Lemma rep_os_write_byte s d q b : rep s d q ->
    exists s', os_write_byte B flush_i s b = Some s' /\ rep s' (pwrite d q [uchar b]) (q + 1).
  Proof.
    intros Hr. unfold os_write_byte.
    destruct (Nat.leb_spec BUFFER_SIZE (length (o_buf s))).
    - destruct (rep_flush _ _ _ Hr) as (s1 & E & Hr1 & Eb & _). rewrite E; cbn [obind].
      destruct (rep_write_byte s1 d q b Hr1) as (s2 & E2 & Hr2 & _).
      { rewrite Eb; cbn. pose proof BS_pos; lia. }
      eauto.
    - cbn [obind]. destruct (rep_write_byte s d q b Hr) as (s2 & E2 & Hr2 & _); eauto.
  Qed.

  Lemma rep_each_checked bs : forall s d q, rep s d q -> Forall is_byte bs ->
    exists s', each_byte B (os_write_byte B flush_i) s bs = Some s' /\
      rep s' (pwrite d q bs) (q + length bs).
  Proof.
    induction bs as [|b bs IH]; intros s d q Hr Hb; cbn [each_byte].
    - exists s. cbn [pwrite length]. rewrite Nat.add_0_r. auto.
    - inversion Hb as [|? ? Hb1 Hbs]; subst.
      destruct (rep_os_write_byte s d q b Hr) as (s1 & E & Hr1). rewrite E; cbn [obind].
      destruct (IH _ _ _ Hr1 Hbs) as (s2 & E2 & Hr2). exists s2; split; [exact E2|].
      assert (Eu : uchar b = b) by (unfold uchar; apply Z.mod_small; exact Hb1).
      rewrite Eu in Hr2. change 1 with (length [b]) in Hr2 at 1. rewrite pwrite_app in Hr2.
      cbn [app length] in *. replace (q + S (length bs)) with (q + 1 + length bs) by lia. exact Hr2.
  Qed.

  Lemma rep_each_unchecked bs : forall s d q, rep s d q -> Forall is_byte bs ->
    length (o_buf s) + length bs <= BUFFER_SIZE ->
    exists s', each_byte B (write_byte B) s bs = Some s' /\
      rep s' (pwrite d q bs) (q + length bs).
  Proof.
    induction bs as [|b bs IH]; intros s d q Hr Hb Hl; cbn [each_byte].
    - exists s. cbn [pwrite length]. rewrite Nat.add_0_r. auto.
    - inversion Hb as [|? ? Hb1 Hbs]; subst. cbn [length] in Hl.
      destruct (rep_write_byte s d q b Hr) as (s1 & E & Hr1 & El); [lia|]. rewrite E; cbn [obind].
      destruct (IH _ _ _ Hr1 Hbs) as (s2 & E2 & Hr2); [lia|]. exists s2; split; [exact E2|].
      assert (Eu : uchar b = b) by (unfold uchar; apply Z.mod_small; exact Hb1).
      rewrite Eu in Hr2. change 1 with (length [b]) in Hr2 at 1. rewrite pwrite_app in Hr2.
      cbn [app length] in *. replace (q + S (length bs)) with (q + 1 + length bs) by lia. exact Hr2.
  Qed.

  Lemma enc_v_length fuel num bs : enc_v fuel num = Some bs -> length bs <= fuel.
  Proof.
    revert num bs; induction fuel as [|fuel IH]; intros num bs H; [discriminate|].
    cbn [enc_v] in H. destruct (num >? 127)%Z.
    - apply obind_some in H. destruct H as (r & Hr & E). injection E as <-.
      apply IH in Hr. cbn; lia.
    - injection H as <-. cbn; lia.
  Qed.

  Lemma rep_vint s d q n bs : rep s d q -> enc_vint n = Some bs ->
    exists s', os_write_vint B flush_i s n = Some s' /\ rep s' (pwrite d q bs) (q + length bs).
  Proof.
    intros Hr He. unfold os_write_vint. rewrite He; cbn [obind].
    pose proof (enc_v_bytes _ _ _ He) as [Hb _].
    pose proof (enc_v_length _ _ _ He) as Hl. unfold VINT_MAX_LEN in Hl.
    destruct (Nat.ltb_spec VINT_END (length (o_buf s))).
    - apply rep_each_checked; auto.
    - apply rep_each_unchecked; auto. pose proof BS_val; pose proof VE_val. lia.
  Qed.

  Lemma rep_flush_direct s d q bs : rep s d q -> o_buf s = [] -> length bs <= BUFFER_SIZE ->
    exists b, flush_i (o_b s) bs = Some b /\
      rep (mkOs (o_start s + length bs) (o_buf s) b) (pwrite d q bs) (q + length bs).
  Proof.
    intros (f & Hh & Hok & Hl & -> & ->) Eb Hlen. rewrite Eb in *. cbn [pwrite length] in *.
    destruct (flush_ok _ _ _ bs Hh Hok Hlen) as (b & E & Hh'). exists b; split; [exact E|].
    exists (pwrite f (o_start s) bs). cbn [o_b o_start o_buf pwrite length]. 
    rewrite !Nat.add_0_r. repeat split; auto; lia.
  Qed.

  Lemma rep_bytes_loop fuel : forall s d q bs, rep s d q -> o_buf s = [] -> length bs < fuel ->
    exists s', os_write_bytes_loop B flush_i fuel s bs = Some s' /\ rep s' (pwrite d q bs) (q + length bs).
  Proof.
    induction fuel as [|fuel IH]; intros s d q bs Hr Eb Hf; [lia|].
    cbn [os_write_bytes_loop]. destruct bs as [|x bs].
    - exists s. cbn [pwrite length]. rewrite Nat.add_0_r. auto.
    - set (l := x :: bs) in *. set (size := if length l <? BUFFER_SIZE then length l else BUFFER_SIZE).
      assert (Hs : 0 < size <= length l /\ size <= BUFFER_SIZE).
      { subst size. pose proof BS_pos. destruct (Nat.ltb_spec (length l) BUFFER_SIZE); subst l; cbn in *; lia. }
      destruct (rep_flush_direct s d q (firstn size l) Hr Eb) as (b & E & Hr1).
      { rewrite firstn_length; lia. }
      rewrite E; cbn [obind].
      assert (El : length (firstn size l) = size) by (rewrite firstn_length; lia).
      rewrite El in Hr1.
      destruct (IH _ _ _ (skipn size l) Hr1) as (s' & E' & Hr').
      + exact Eb.
      + rewrite skipn_length. lia.
      + exists s'; split; [exact E'|].
        rewrite <- El in Hr' at 2. rewrite pwrite_app, firstn_skipn, skipn_length in Hr'.
        replace (q + length l) with (q + size + (length l - size)) by lia. exact Hr'.
  Qed.

  Lemma rep_bytes s d q bs : rep s d q ->
    exists s', os_write_bytes B flush_i s bs = Some s' /\ rep s' (pwrite d q bs) (q + length bs).
  Proof.
    intros Hr. unfold os_write_bytes.
    assert (exists s1, (if 0 <? length (o_buf s) then os_flush B flush_i s else Some s) = Some s1 /\
                       rep s1 d q /\ o_buf s1 = []) as (s1 & E & Hr1 & Eb).
    { destruct (Nat.ltb_spec 0 (length (o_buf s))).
      - destruct (rep_flush _ _ _ Hr) as (s1 & E & ? & ? & _). eauto.
      - exists s; repeat split; auto. destruct (o_buf s); [auto|cbn in *; lia]. }
    rewrite E; cbn [obind].
    destruct (Nat.ltb_spec (length bs) BUFFER_SIZE).
    - destruct (rep_flush_direct s1 d q bs Hr1 Eb) as (b & E1 & Hr2); [lia|].
      rewrite E1; cbn [obind]. eauto.
    - apply rep_bytes_loop; auto.
  Qed.

  Lemma rep_step s d q o f1 : rep s d q -> ideal_step (mkOf d q) o = Some f1 ->
    (match o with OSeek p => okpos d p | _ => True end) ->
    exists s', ostep B flush_i seek_i s o = Some s' /\ rep s' (f_data f1) (f_pos f1).
  Proof.
    intros Hr Hi Hp.
    assert (Hput : forall bs, f_data (put (mkOf d q) bs) = pwrite d q bs /\
                              f_pos (put (mkOf d q) bs) = q + length bs).
    { intros [|b bs]; cbn [put pwrite f_data f_pos length]; auto with arith. }
    destruct o; cbn [ideal_step op_bytes obind] in Hi.
    - apply some_inj in Hi; subst f1. destruct (Hput [uchar b]) as [-> ->].
      destruct (rep_os_write_byte s d q b Hr) as (s' & ? & ?). eauto.
    - apply some_inj in Hi; subst f1. destruct (Hput bs) as [-> ->]. apply rep_bytes; auto.
    - apply some_inj in Hi; subst f1. cbn [f_data f_pos]. apply (rep_seek s d q); auto.
    - apply some_inj in Hi; subst f1. destruct (Hput []) as [-> ->]. cbn [pwrite length].
      destruct (rep_flush _ _ _ Hr) as (s' & E & Hr' & _). rewrite Nat.add_0_r. eauto.
    - apply obind_some in Hi. destruct Hi as (bs & He & E). apply some_inj in E; subst f1.
      destruct (Hput bs) as [-> ->]. apply rep_vint; auto.
    - apply some_inj in Hi; subst f1. destruct (Hput (enc_32 n)) as [-> ->].
      apply rep_each_checked; auto. apply enc_32_bytes.
    - apply some_inj in Hi; subst f1. destruct (Hput (enc_64 n)) as [-> ->].
      apply rep_each_checked; auto. apply enc_64_bytes.
    - apply obind_some in Hi. destruct Hi as (bs & He & E). apply some_inj in E; subst f1.
      destruct (Hput bs) as [-> ->]. unfold enc_str in He.
      apply obind_some in He. destruct He as (l & El & E). injection E as <-.
      cbn [ostep]. unfold os_write_string.
      destruct (rep_vint s d q _ _ Hr El) as (s1 & E1 & Hr1). rewrite E1; cbn [obind].
      destruct (rep_bytes s1 _ _ s0 Hr1) as (s2 & E2 & Hr2). exists s2; split; [exact E2|].
      rewrite pwrite_app in Hr2. rewrite app_length, Nat.add_assoc. exact Hr2.
  Qed.

  Fixpoint seeks_ok (f : ofile) (ops : list oop) : Prop :=
    match ops with
    | [] => True
    | o :: t => (match o with OSeek p => okpos (f_data f) p | _ => True end) /\
                match ideal_step f o with Some f1 => seeks_ok f1 t | None => True end
    end.

  Lemma rep_run ops : forall s d q f, rep s d q -> ideal_run (mkOf d q) ops = Some f ->
    seeks_ok (mkOf d q) ops ->
    exists s', orun B flush_i seek_i s ops = Some s' /\ rep s' (f_data f) (f_pos f).
  Proof.
    induction ops as [|o ops IH]; intros s d q f Hr Hi Hs; cbn [ideal_run orun] in *.
    - injection Hi as <-. exists s; auto.
    - apply obind_some in Hi. destruct Hi as (f1 & E1 & Hi).
      cbn [seeks_ok f_data] in Hs. rewrite E1 in Hs. destruct Hs as [Hp Hs].
      destruct (rep_step s d q o f1 Hr E1 Hp) as (s1 & Es & Hr1). rewrite Es; cbn [obind].
      destruct f1 as [d1 q1]. eapply IH; eauto.
  Qed.

  Lemma rep_pos s d q : rep s d q -> os_pos s = q.
  Proof. intros (f & _ & _ & _ & _ & ->). reflexivity. Qed.
End Out.

Lemma ideal_run_total ops : forall f, Forall values_ok ops -> exists f', ideal_run f ops = Some f'.
Proof.
  induction ops as [|o ops IH]; intros f Hv; cbn [ideal_run]; [eauto|].
  inversion Hv as [|? ? Ho Hops]; subst.
  assert (exists f1, ideal_step f o = Some f1) as (f1 & E).
  { destruct o; cbn [ideal_step op_bytes obind]; eauto.
    - destruct (vll_roundtrips n Ho) as (bs & -> & _). cbn [obind]. eauto.
    - unfold enc_str. cbn [values_ok] in Ho.
      destruct (vint_roundtrips (Z.of_nat (length s))) as (bs & -> & _).
      { unfold u32. assert (2 ^ 31 < 2 ^ 32)%Z by reflexivity. lia. }
      cbn [obind]. eauto. }
  rewrite E; cbn [obind]. auto.
Qed.

(* ------------------------------------------------------------ operating system files *)
Definition fs_holds (b : fsfile) (f : list Z) (p : nat) : Prop := fs_data b = f /\ fs_off b = p.

Lemma fs_flush_ok b f p bs : fs_holds b f p -> True -> length bs <= BUFFER_SIZE ->
  exists b', fso_flush_i b bs = Some b' /\ fs_holds b' (pwrite f p bs) (p + length bs).
Proof. intros [<- <-] _ _. eexists; split; [reflexivity|]. split; reflexivity. Qed.

Lemma fs_seek_ok b f p q : fs_holds b f p -> True -> fs_holds (fso_seek_i b q) f q.
Proof. intros [<- <-] _. split; reflexivity. Qed.

Lemma seeks_ok_fs ops f : seeks_ok (fun _ _ => True) f ops.
Proof.
  revert f; induction ops as [|o ops IH]; intros f; cbn; auto.
  split; [destruct o; exact I|]. destruct (ideal_step f o); auto.
Qed.

Lemma fs_out_correct old ops : Forall values_ok ops ->
  exists f s s', ideal_run (mkOf (match old with Some d => d | None => [] end) 0) ops = Some f /\
    orun fsfile fso_flush_i fso_seek_i (fs_new_output old) ops = Some s /\
    os_pos s = f_pos f /\
    os_flush fsfile fso_flush_i s = Some s' /\ fs_data (o_b s') = f_data f /\ os_pos s' = f_pos f.
Proof.
  intros Hv. set (d0 := match old with Some d => d | None => [] end).
  destruct (ideal_run_total ops (mkOf d0 0) Hv) as (f & Ef).
  destruct (rep_run fsfile fso_flush_i fso_seek_i fs_holds (fun _ _ => True)) with
    (ops := ops) (s := fs_new_output old) (d := d0) (q := 0) (f := f) as (s & Es & Hr); auto.
  - exact fs_flush_ok.
  - exact fs_seek_ok.
  - exists d0. repeat split; auto. cbn. pose proof BS_pos; lia.
  - apply seeks_ok_fs.
  - destruct (rep_flush fsfile fso_flush_i fso_seek_i fs_holds (fun _ _ => True) fs_flush_ok
                fs_seek_ok (fun _ _ _ _ => I) _ _ _ Hr) as (s' & E & Hr' & _ & Hh).
    exists f, s, s'. repeat split; auto.
    + eapply rep_pos; eauto.
    + exact (proj1 Hh).
    + eapply rep_pos; eauto.
Qed.

(* ------------------------------------------------------------ in-memory files *)
Lemma concat_length_BS (l : list (list (option Z))) :
  Forall (fun c => length c = BUFFER_SIZE) l -> length (concat l) = length l * BUFFER_SIZE.
Proof. induction 1 as [|c l Hc Hl IH]; cbn; [auto|]. rewrite app_length, IH, Hc. reflexivity. Qed.

Lemma nth_error_concat (l : list (list (option Z))) i :
  Forall (fun c => length c = BUFFER_SIZE) l ->
  nth_error (concat l) i =
  match nth_error l (i / BUFFER_SIZE) with Some c => nth_error c (i mod BUFFER_SIZE) | None => None end.
Proof.
  intros Hl; revert i; induction Hl as [|c l Hc Hl IH]; intros i; cbn [concat].
  - destruct i; destruct (_ / _); reflexivity.
  - pose proof BS_pos as HB. rewrite nth_error_app'.
    destruct (Nat.ltb_spec i (length c)) as [Hi|Hi]; rewrite Hc in Hi.
    + rewrite (Nat.div_small i) by lia. rewrite (Nat.mod_small i) by lia. reflexivity.
    + rewrite IH, Hc.
      assert (Ed : i / BUFFER_SIZE = (i - BUFFER_SIZE) / BUFFER_SIZE + 1)
        by (rewrite <- Nat.div_add by lia; f_equal; lia).
      assert (Em : i mod BUFFER_SIZE = (i - BUFFER_SIZE) mod BUFFER_SIZE)
        by (rewrite <- (Nat.mod_add (i - BUFFER_SIZE) 1) by lia; f_equal; lia).
      rewrite Ed, Em, Nat.add_1_r. reflexivity.
Qed.

Lemma rf_extend_forall bufs n : Forall (fun c => length c = BUFFER_SIZE) bufs ->
  Forall (fun c => length c = BUFFER_SIZE) (rf_extend bufs n).
Proof.
  intros H. unfold rf_extend. apply Forall_app; split; auto.
  apply Forall_forall; intros c Hc. apply repeat_spec in Hc; subst.
  unfold new_chunk. apply repeat_length.
Qed.
Lemma rf_extend_length bufs n : n < length (rf_extend bufs n).
Proof. unfold rf_extend. rewrite app_length, repeat_length. lia. Qed.
Lemma rf_extend_firstn bufs n (f : list Z) :
  firstn (length f) (concat bufs) = map Some f ->
  firstn (length f) (concat (rf_extend bufs n)) = map Some f.
Proof.
  intros H. unfold rf_extend. rewrite concat_app, firstn_app, H.
  assert (length f <= length (concat bufs)).
  { apply (f_equal (@length _)) in H. rewrite firstn_length, map_length in H. lia. }
  replace (length f - length (concat bufs)) with 0 by lia. rewrite firstn_O, app_nil_r. reflexivity.
Qed.

(* writing src at a position inside chunk k *)
Lemma bufs_copy_ok bufs k off src : Forall (fun c => length c = BUFFER_SIZE) bufs -> k < length bufs ->
  off + length src <= BUFFER_SIZE ->
  exists bufs', bufs_copy bufs k off src = Some bufs' /\
    Forall (fun c => length c = BUFFER_SIZE) bufs' /\ length bufs' = length bufs /\
    forall i, nth_error (concat bufs') i =
      if (k * BUFFER_SIZE + off <=? i) && (i <? k * BUFFER_SIZE + off + length src)
      then nth_error (map Some src) (i - (k * BUFFER_SIZE + off))
      else nth_error (concat bufs) i.
Proof.
  intros Hf Hk Ho. pose proof BS_pos as HB. unfold bufs_copy.
  destruct (nth_error bufs k) as [c|] eqn:Ec; [|apply nth_error_None in Ec; lia].
  assert (Hc : length c = BUFFER_SIZE).
  { rewrite Forall_forall in Hf. apply Hf. eapply nth_error_In; eauto. }
  cbn [obind]. unfold chunk_copy. destruct (Nat.leb_spec (off + length src) BUFFER_SIZE); [|lia].
  cbn [obind]. eexists; split; [reflexivity|].
  set (c' := firstn off c ++ map Some src ++ skipn (off + length src) c).
  assert (Hc' : length c' = BUFFER_SIZE).
  { subst c'. rewrite !app_length, firstn_length, map_length, skipn_length. lia. }
  assert (Hf' : Forall (fun c => length c = BUFFER_SIZE) (upd bufs k c')).
  { clear Ec Hk. revert k; induction Hf as [|x l Hx Hl IH]; intros [|k]; cbn; constructor; auto. }
  split; [exact Hf'|]. split; [apply upd_length|].
  intros i. rewrite nth_error_concat by exact Hf'. rewrite (nth_error_concat bufs i Hf).
  rewrite nth_error_upd.
  pose proof (Nat.div_mod i BUFFER_SIZE ltac:(lia)) as Hdm.
  pose proof (Nat.mod_upper_bound i BUFFER_SIZE ltac:(lia)) as Hmb.
  set (iq := i / BUFFER_SIZE) in *. set (ir := i mod BUFFER_SIZE) in *.
  destruct (Nat.eqb_spec k iq) as [->|Hne].
  - destruct (Nat.ltb_spec iq (length bufs)); [|lia]. cbn [andb]. rewrite Ec.
    subst c'. rewrite nth_error_app', firstn_length, Hc.
    replace (Nat.min off BUFFER_SIZE) with off by lia.
    destruct (Nat.ltb_spec ir off).
    + rewrite nth_error_firstn. destruct (Nat.ltb_spec ir off); [|lia].
      destruct (Nat.leb_spec (iq * BUFFER_SIZE + off) i); [nia|]. reflexivity.
    + destruct (Nat.leb_spec (iq * BUFFER_SIZE + off) i); [|nia]. cbn [andb].
      rewrite nth_error_app', map_length.
      destruct (Nat.ltb_spec (ir - off) (length src)), (Nat.ltb_spec i (iq * BUFFER_SIZE + off + length src));
        try nia.
      * f_equal. nia.
      * rewrite nth_error_skipn. f_equal. lia.
  - cbn [andb]. destruct (Nat.leb_spec (k * BUFFER_SIZE + off) i); cbn [andb]; [|reflexivity].
    destruct (Nat.ltb_spec i (k * BUFFER_SIZE + off + length src)); [|reflexivity].
    exfalso. apply Hne.
    assert (k * BUFFER_SIZE <= i < S k * BUFFER_SIZE) by nia.
    assert (iq = k); [|auto]. subst iq. symmetry. apply (Nat.div_unique i BUFFER_SIZE k (i - k * BUFFER_SIZE)); nia.
Qed.

Definition ram_os_holds (b : ramos) (f : list Z) (p : nat) : Prop :=
  ram_holds (ro_file b) f /\ ro_ptr b = p.
Definition within (f : list Z) (p : nat) : Prop := p <= length f.

Lemma ram_holds_nth rf f : ram_holds rf f -> forall i, i < length f ->
  nth_error (concat (rf_bufs rf)) i = Some (nth_error f i).
Proof.
  intros (Hl & Hf & Hne & Hc) i Hi.
  pose proof (f_equal (fun l => nth_error l i) Hc) as H. cbn beta in H.
  rewrite nth_error_firstn in H. destruct (Nat.ltb_spec i (length f)); [|lia].
  rewrite H. destruct (nth_error f i) as [x|] eqn:E.
  - rewrite (map_nth_error Some _ _ E). reflexivity.
  - apply nth_error_None in E. lia.
Qed.

Lemma ram_holds_intro rf f : rf_len rf = length f ->
  Forall (fun c => length c = BUFFER_SIZE) (rf_bufs rf) -> rf_bufs rf <> [] ->
  (forall i, i < length f -> nth_error (concat (rf_bufs rf)) i = Some (nth_error f i)) ->
  ram_holds rf f.
Proof.
  intros Hl Hf Hne H. repeat split; auto. apply list_ext'; intro i.
  rewrite nth_error_firstn. destruct (Nat.ltb_spec i (length f)) as [Hi|Hi].
  - rewrite H by auto. destruct (nth_error f i) as [x|] eqn:E.
    + rewrite (map_nth_error Some _ _ E). reflexivity.
    + apply nth_error_None in E. lia.
  - symmetry. apply nth_error_None. rewrite map_length. auto.
Qed.

Lemma ram_flush_ok b f p bs : ram_os_holds b f p -> within f p -> length bs <= BUFFER_SIZE ->
  exists b', ramo_flush_i b bs = Some b' /\ ram_os_holds b' (pwrite f p bs) (p + length bs).
Proof.
  intros [Hh <-] Hw Hl. unfold within in Hw. pose proof BS_pos as HB.
  pose proof Hh as (Hlen & Hf & Hne & Hc).
  unfold ramo_flush_i. set (ptr := ro_ptr b) in *. set (bufs := rf_bufs (ro_file b)) in *.
  set (bn := ptr / BUFFER_SIZE). set (bo := ptr mod BUFFER_SIZE).
  assert (Hptr : ptr = bn * BUFFER_SIZE + bo).
  { subst bn bo. rewrite (Nat.mul_comm (ptr / BUFFER_SIZE)). apply Nat.div_mod; lia. }
  assert (Hbo : bo < BUFFER_SIZE) by (apply Nat.mod_upper_bound; lia).
  set (n1 := if BUFFER_SIZE - bo <? length bs then BUFFER_SIZE - bo else length bs).
  assert (Hn1 : n1 <= length bs /\ bo + n1 <= BUFFER_SIZE).
  { subst n1. destruct (Nat.ltb_spec (BUFFER_SIZE - bo) (length bs)); lia. }
  destruct (bufs_copy_ok (rf_extend bufs bn) bn bo (firstn n1 bs)) as (b2 & E2 & Hf2 & Hl2 & Hn2).
  { apply rf_extend_forall; auto. }
  { apply rf_extend_length. }
  { rewrite firstn_length; lia. }
  rewrite E2; cbn [obind]. rewrite firstn_length in Hn2.
  replace (Nat.min n1 (length bs)) with n1 in Hn2 by lia.
  assert (exists b3, (if n1 <? length bs
                      then bufs_copy (rf_extend b2 (bn + 1)) (bn + 1) 0 (skipn n1 bs)
                      else Some b2) = Some b3 /\
            Forall (fun c => length c = BUFFER_SIZE) b3 /\ b3 <> [] /\
            forall i, i < Nat.max (length f) (ptr + length bs) ->
              nth_error (concat b3) i =
              if (ptr <=? i) && (i <? ptr + length bs) then nth_error (map Some bs) (i - ptr)
              else Some (nth_error f i)) as (b3 & E3 & Hf3 & Hne3 & Hn3).
  { assert (Hb2 : forall i, i < length f -> (ptr <=? i) && (i <? ptr + n1) = false ->
               nth_error (concat b2) i = Some (nth_error f i)).
    { intros i Hi Hout. rewrite Hn2. rewrite <- Hptr. rewrite Hout.
      unfold rf_extend. rewrite concat_app, nth_error_app1.
      - apply ram_holds_nth; auto.
      - apply (f_equal (@length _)) in Hc. rewrite firstn_length, map_length in Hc. lia. }
    destruct (Nat.ltb_spec n1 (length bs)) as [H1|H1].
    - assert (En1 : n1 = BUFFER_SIZE - bo).
      { subst n1. destruct (Nat.ltb_spec (BUFFER_SIZE - bo) (length bs)); lia. }
      destruct (bufs_copy_ok (rf_extend b2 (bn + 1)) (bn + 1) 0 (skipn n1 bs)) as (b3 & E3 & Hf3 & Hl3 & Hn3).
      { apply rf_extend_forall; auto. }
      { apply rf_extend_length. }
      { rewrite skipn_length; lia. }
      exists b3. split; [exact E3|]. split; [exact Hf3|].
      split. { intros ->. cbn in Hl3. pose proof (rf_extend_length b2 (bn + 1)). lia. }
      intros i Hi. rewrite Hn3, skipn_length.
      replace ((bn + 1) * BUFFER_SIZE + 0) with (ptr + n1) by nia.
      destruct (Nat.leb_spec (ptr + n1) i) as [Ha|Ha]; cbn [andb].
      + destruct (Nat.ltb_spec i (ptr + n1 + (length bs - n1))).
        * destruct (Nat.leb_spec ptr i); [|lia]. destruct (Nat.ltb_spec i (ptr + length bs)); [|lia].
          cbn [andb]. rewrite <- skipn_map, nth_error_skipn. f_equal. lia.
        * destruct (Nat.leb_spec ptr i); [|lia]. destruct (Nat.ltb_spec i (ptr + length bs)); [lia|].
          cbn [andb].
          unfold rf_extend. rewrite concat_app, nth_error_app1.
          -- apply Hb2; [lia|]. destruct (Nat.ltb_spec i (ptr + n1)); [lia|]. apply andb_false_r.
          -- assert (Hii : i < length f) by lia.
             specialize (Hb2 i Hii). destruct (Nat.ltb_spec i (ptr + n1)); [lia|].
             rewrite andb_false_r in Hb2. specialize (Hb2 eq_refl).
             apply nth_error_Some. congruence.
      + unfold rf_extend. rewrite concat_app, nth_error_app1.
        * destruct (Nat.leb_spec ptr i) as [Hb|Hb]; cbn [andb].
          -- destruct (Nat.ltb_spec i (ptr + length bs)); [|lia].
             rewrite Hn2, <- Hptr. destruct (Nat.leb_spec ptr i); [|lia].
             destruct (Nat.ltb_spec i (ptr + n1)); [|lia]. cbn [andb].
             rewrite <- firstn_map, nth_error_firstn.
             destruct (Nat.ltb_spec (i - ptr) n1); [reflexivity|lia].
          -- apply Hb2; [lia|]. destruct (Nat.leb_spec ptr i); [lia|reflexivity].
        * rewrite concat_length_BS by exact Hf2. rewrite Hl2.
          pose proof (rf_extend_length bufs bn). nia.
    - assert (En1 : n1 = length bs) by lia.
      exists b2. split; [reflexivity|]. split; [exact Hf2|].
      split. { intros ->. cbn in Hl2. pose proof (rf_extend_length bufs bn). lia. }
      intros i Hi. rewrite <- En1.
      destruct ((ptr <=? i) && (i <? ptr + n1)) eqn:Eb.
      + rewrite Hn2, <- Hptr, Eb. rewrite En1, firstn_all. reflexivity.
      + apply Hb2; [|exact Eb]. destruct (Nat.leb_spec ptr i), (Nat.ltb_spec i (ptr + n1)); cbn in Eb; try congruence; lia. }
  rewrite E3; cbn [obind]. eexists; split; [reflexivity|].
  split; cbn [ro_file ro_ptr]; [|reflexivity].
  destruct bs as [|x bs].
  - cbn [length pwrite] in *. rewrite Nat.add_0_r in *.
    apply ram_holds_intro; cbn [rf_len rf_bufs]; auto.
    + rewrite Hlen. destruct (Nat.ltb_spec (length f) ptr); lia.
    + intros i Hi. rewrite Hn3 by lia.
      destruct (Nat.leb_spec ptr i), (Nat.ltb_spec i ptr); cbn; auto; lia.
  - set (l := x :: bs) in *. assert (Hln : l <> []) by discriminate.
    apply ram_holds_intro; cbn [rf_len rf_bufs]; auto.
    + rewrite Hlen, pwrite_length by auto.
      destruct (Nat.ltb_spec (length f) (ptr + length l)); lia.
    + rewrite pwrite_length by auto. intros i Hi. rewrite Hn3 by lia.
      rewrite nth_error_pwrite by auto.
      destruct (Nat.leb_spec ptr i), (Nat.ltb_spec i (ptr + length l)), (Nat.ltb_spec i ptr); cbn [andb]; auto; try lia.
      * destruct (nth_error l (i - ptr)) as [y|] eqn:Ey.
        -- rewrite (map_nth_error Some _ _ Ey). reflexivity.
        -- apply nth_error_None in Ey. lia.
      * destruct (Nat.ltb_spec i (length f)); [reflexivity|lia].
Qed.

Lemma ram_seek_ok b f p q : ram_os_holds b f p -> within f q -> ram_os_holds (ramo_seek_i b q) f q.
Proof. intros [Hh <-] _. split; auto. Qed.

Lemma within_write f p bs : within f p -> within (pwrite f p bs) (p + length bs).
Proof.
  unfold within; intros H. destruct bs as [|b bs]; [cbn; lia|].
  rewrite pwrite_length by discriminate. lia.
Qed.

Lemma seeks_ok_ram ops f : seeks_within f ops -> seeks_ok within f ops.
Proof.
  revert f; induction ops as [|o ops IH]; intros f; [exact (fun H => H)|].
  cbn [seeks_within seeks_ok].
  intros [H1 H2]. split; [destruct o; auto|]. destruct (ideal_step f o); auto.
Qed.

Lemma ram_holds_new : ram_holds rf_new [].
Proof.
  split; [reflexivity|]. split; [constructor; [apply repeat_length|constructor]|].
  split; [discriminate|reflexivity].
Qed.

Lemma ram_out_correct old d ops :
  (match old with Some rf => ram_holds rf d | None => d = [] end) ->
  Forall values_ok ops -> seeks_within (mkOf d 0) ops ->
  exists f s s', ideal_run (mkOf d 0) ops = Some f /\
    orun ramos ramo_flush_i ramo_seek_i (ram_new_output old) ops = Some s /\
    os_pos s = f_pos f /\
    os_flush ramos ramo_flush_i s = Some s' /\ ram_holds (ro_file (o_b s')) (f_data f) /\
    os_pos s' = f_pos f.
Proof.
  intros Hold Hv Hs.
  destruct (ideal_run_total ops (mkOf d 0) Hv) as (f & Ef).
  destruct (rep_run ramos ramo_flush_i ramo_seek_i ram_os_holds within) with
    (ops := ops) (s := ram_new_output old) (d := d) (q := 0) (f := f) as (s & Es & Hr); auto.
  - exact ram_flush_ok.
  - exact ram_seek_ok.
  - exact within_write.
  - exists d. split; [|split; [unfold within; cbn; lia|split; [cbn; lia|split; reflexivity]]].
    split; [|reflexivity]. destruct old as [rf|]; [exact Hold|]. subst d. apply ram_holds_new.
  - destruct (rep_flush ramos ramo_flush_i ramo_seek_i ram_os_holds within ram_flush_ok ram_seek_ok within_write
                _ _ _ Hr) as (s' & E & Hr' & _ & Hh).
    exists f, s, s'. split; [exact Ef|]. split; [exact Es|].
    split; [eapply rep_pos; eauto|]. split; [exact E|]. split; [apply Hh|eapply rep_pos; eauto].
Qed.

(* ------------------------------------------------------------ input streams, generic *)
Lemma skipn_nth_some {A} (f : list A) p b : nth_error f p = Some b -> skipn p f = b :: skipn (S p) f.
Proof.
  revert p; induction f as [|x f IH]; intros [|p] H; cbn in *; try discriminate.
  - congruence.
  - rewrite (IH p H). reflexivity.
Qed.
Lemma skipn_nth_none {A} (f : list A) p : nth_error f p = None -> skipn p f = [] /\ length f <= p.
Proof. intros H. apply nth_error_None in H. split; [apply skipn_all2|]; auto. Qed.

Local Ltac fin := split; [auto|split; [auto|split; [auto|lia]]].
Section In.
  Variable B : Type.
  Variable length_i : B -> nat.
  Variable read_i : B -> nat -> nat -> res (list Z) * B.
  Variable seek_i : B -> nat -> B.
  Variable f : list Z.                       (* contents of the file *)
  Variable I : B -> nat -> Prop.             (* the file is ready to be read at this position *)
  Variable past : nat -> res (list Z).
  Hypothesis H_len : forall b p, I b p -> length_i b = length f.
  Hypothesis H_read : forall b p n, I b p -> p + n <= length f ->
    exists b', read_i b p n = (Ok (firstn n (skipn p f)), b') /\ I b' (p + n).
  Hypothesis H_past : forall b p n, I b p -> length f < p + n ->
    match past n with
    | Ok d => exists b', read_i b p n = (Ok d, b') /\ I b' (p + n)
    | Err => exists b', read_i b p n = (Err, b') /\ forall q, I b' q
    | UB => True
    end.
  Hypothesis H_seek : forall b p q, I b p -> I (seek_i b q) q.

  Definition inv (s : istream B) (p : nat) : Prop :=
    p = i_start s + i_pos s /\
    ((exists len, i_len s = Z.of_nat len /\ 0 < len /\ i_pos s <= len /\
        i_data s = firstn len (skipn (i_start s) f) /\ i_start s + len <= length f /\
        I (i_b s) (i_start s + len))
     \/ ((i_len s <= 0)%Z /\ I (i_b s) (i_start s + i_pos s))).

  Lemma inv_ready s p : inv s p -> exists q, I (i_b s) q.
  Proof. intros (_ & [(len & _ & _ & _ & _ & _ & H)|(_ & H)]); eauto. Qed.

  Lemma read_byte_ok s p : inv s p -> (Z.of_nat (i_pos s) < i_len s)%Z ->
    exists b s', read_byte B s = (Ok b, s') /\ nth_error f p = Some b /\ inv s' (S p) /\
      i_len s' = i_len s /\ i_pos s' = S (i_pos s).
  Proof.
    intros (-> & [(len & El & Hl & Hp & Ed & Hb & HI)|(Hl & _)]) Hlt; [|lia].
    unfold read_byte. destruct (Z.ltb_spec (Z.of_nat (i_pos s)) (i_len s)); [|lia].
    rewrite Ed, nth_error_firstn, nth_error_skipn.
    destruct (Nat.ltb_spec (i_pos s) len); [|lia].
    destruct (nth_error f (i_start s + i_pos s)) as [b|] eqn:E.
    - eexists; eexists; split; [reflexivity|]. split; [reflexivity|]. cbn [i_len i_pos].
      split; [|auto]. split; cbn [i_start i_pos]; [lia|]. left. exists len. cbn [i_len i_pos i_data i_start i_b].
      repeat split; auto; lia.
    - apply nth_error_None in E. lia.
  Qed.

  Lemma refill_ok s p : inv s p -> (i_len s <= Z.of_nat (i_pos s))%Z ->
    match nth_error f p with
    | Some _ => exists s', is_refill B length_i read_i s = (Ok tt, s') /\ inv s' p /\
                  (Z.of_nat (i_pos s') < i_len s')%Z
    | None => exists s', is_refill B length_i read_i s = (Err, s') /\ inv s' p
    end.
  Proof.
    intros Hi Hge. pose proof Hi as (Ep & Hcase).
    assert (HI : I (i_b s) p).
    { destruct Hcase as [(len & El & Hl & Hp & Ed & Hb & HI)|(Hl & HI)].
      - assert (i_pos s = len) by lia. subst p. replace (i_start s + i_pos s) with (i_start s + len) by lia. auto.
      - subst p; auto. }
    unfold is_refill. rewrite <- Ep. rewrite (H_len _ _ HI). pose proof BS_pos as HB.
    set (last := Nat.min (p + BUFFER_SIZE) (length f)).
    destruct (nth_error f p) as [b|] eqn:E.
    - assert (Hp : p < length f) by (apply nth_error_Some; congruence).
      destruct (Z.leb_spec (Z.of_nat last - Z.of_nat p) 0) as [Hc|Hc]; [lia|].
      replace (Z.to_nat (Z.of_nat last - Z.of_nat p)) with (last - p) by lia.
      destruct (H_read _ _ (last - p) HI) as (b' & Er & HI'); [lia|]. rewrite Er.
      eexists; split; [reflexivity|]. split; [|cbn [i_pos i_len]; lia].
      split; cbn [i_start i_pos]; [lia|]. left. exists (last - p). cbn [i_len i_pos i_data i_start i_b].
      repeat split; auto; lia.
    - apply nth_error_None in E.
      destruct (Z.leb_spec (Z.of_nat last - Z.of_nat p) 0) as [Hc|Hc]; [|lia].
      eexists; split; [reflexivity|]. split; cbn [i_start i_pos]; [exact Ep|]. right.
      cbn [i_len i_start i_pos i_b]. split; [exact Hc|]. rewrite <- Ep. exact HI.
  Qed.

  Lemma is_read_byte_ok s p : inv s p ->
    match nth_error f p with
    | Some b => exists s', is_read_byte B length_i read_i s = (Ok b, s') /\ inv s' (S p)
    | None => exists s', is_read_byte B length_i read_i s = (Err, s') /\ inv s' p
    end.
  Proof.
    intros Hi. unfold is_read_byte. destruct (Z.leb_spec (i_len s) (Z.of_nat (i_pos s))) as [Hge|Hlt].
    - pose proof (refill_ok s p Hi Hge) as HR. destruct (nth_error f p) as [b|] eqn:E.
      + destruct HR as (s1 & -> & Hi1 & Hlt).
        destruct (read_byte_ok s1 p Hi1 Hlt) as (b' & s' & -> & Eb & Hi' & _).
        assert (b' = b) by congruence. subst. eauto.
      + destruct HR as (s1 & -> & Hi1). eauto.
    - destruct (read_byte_ok s p Hi Hlt) as (b & s' & -> & Eb & Hi' & _). rewrite Eb. eauto.
  Qed.

  (* outcome of a reader against the flat reader *)
  Definition agrees {A} (p : nat) (r : rd A) (c : res A * istream B) : Prop :=
    match r with
    | ROk a rest => exists q s', c = (Ok a, s') /\ inv s' q /\ rest = skipn q f /\ p <= q <= length f
    | REof => exists s', c = (Err, s') /\ inv s' (Nat.max p (length f))
    | RUB => True
    end.

  Lemma vint_loop_checked w fuel : forall s p acc shift, inv s p ->
    (w <= shift + 7 * (Z.of_nat fuel - 1))%Z -> 0 < fuel ->
    agrees p (dec_loop w acc shift (skipn p f)) (vint_loop B (is_read_byte B length_i read_i) w fuel acc shift s).
  Proof.
    induction fuel as [|fuel IH]; intros s p acc shift Hi Hw Hf; [lia|].
    cbn [vint_loop]. pose proof (is_read_byte_ok s p Hi) as HR.
    destruct (nth_error f p) as [b|] eqn:E.
    - destruct HR as (s1 & -> & Hi1). rewrite (skipn_nth_some _ _ _ E). cbn [dec_loop].
      assert (Hp : p < length f) by (apply nth_error_Some; congruence).
      destruct (Z.geb_spec shift w) as [Hs|Hs]; [exact Logic.I|].
      destruct (Z.land b 128 =? 0)%Z.
      + exists (S p), s1. fin.
      + assert (0 < fuel) by lia.
        specialize (IH s1 (S p) (Z.lor acc (Z.shiftl (Z.land b 127) shift mod 2 ^ w)) (shift + 7)%Z Hi1).
        assert (Hw' : (w <= shift + 7 + 7 * (Z.of_nat fuel - 1))%Z) by lia.
        specialize (IH Hw' H). unfold agrees in *.
        destruct (dec_loop _ _ _ (skipn (S p) f)) as [a rest| |]; auto.
        * destruct IH as (q & s' & Ec & Hi' & Er & Hq). exists q, s'. fin.
        * destruct IH as (s' & Ec & Hi'). exists s'. split; auto.
          replace (Nat.max p (length f)) with (Nat.max (S p) (length f)) by lia. auto.
    - destruct HR as (s1 & -> & Hi1). destruct (skipn_nth_none _ _ E) as (-> & Hp). cbn [dec_loop].
      destruct (Z.geb_spec shift w); [exact Logic.I|]. exists s1; split; auto.
      replace (Nat.max p (length f)) with p by lia. auto.
  Qed.

  Lemma vint_loop_unchecked w fuel : forall s p acc shift k, inv s p -> (w <= 64)%Z ->
    shift = (7 * Z.of_nat k)%Z -> (Z.of_nat (i_pos s) + (10 - Z.of_nat k) <= i_len s)%Z ->
    (w <= shift + 7 * (Z.of_nat fuel - 1))%Z -> 0 < fuel ->
    agrees p (dec_loop w acc shift (skipn p f)) (vint_loop B (read_byte B) w fuel acc shift s).
  Proof.
    induction fuel as [|fuel IH]; intros s p acc shift k Hi Hw64 Hk Hroom Hw Hf; [lia|].
    cbn [vint_loop]. destruct (Z.geb_spec shift w) as [Hs|Hs].
    - assert (E : dec_loop w acc shift (skipn p f) = RUB).
      { destruct (skipn p f); cbn [dec_loop]; destruct (Z.geb_spec shift w); auto; lia. }
      rewrite E. exact Logic.I.
    - destruct (read_byte_ok s p Hi) as (b & s1 & -> & E & Hi1 & El & Ep); [lia|].
      rewrite (skipn_nth_some _ _ _ E). cbn [dec_loop].
      assert (Hp : p < length f) by (apply nth_error_Some; congruence).
      destruct (Z.geb_spec shift w) as [|_]; [lia|].
      destruct (Z.land b 128 =? 0)%Z.
      + exists (S p), s1. fin.
      + assert (0 < fuel) by lia.
        specialize (IH s1 (S p) (Z.lor acc (Z.shiftl (Z.land b 127) shift mod 2 ^ w)) (shift + 7)%Z (S k) Hi1).
        assert (Hk' : (shift + 7 = 7 * Z.of_nat (S k))%Z) by lia.
        assert (Hr' : (Z.of_nat (i_pos s1) + (10 - Z.of_nat (S k)) <= i_len s1)%Z) by lia.
        assert (Hw' : (w <= shift + 7 + 7 * (Z.of_nat fuel - 1))%Z) by lia.
        specialize (IH Hw64 Hk' Hr' Hw' H). unfold agrees in *.
        destruct (dec_loop _ _ _ (skipn (S p) f)) as [a rest| |]; auto.
        * destruct IH as (q & s' & Ec & Hi' & Er & Hq). exists q, s'. fin.
        * destruct IH as (s' & Ec & Hi'). exists s'. split; auto.
          replace (Nat.max p (length f)) with (Nat.max (S p) (length f)) by lia. auto.
  Qed.

  Lemma is_read_vint_ok w s p : inv s p -> (w = 32 \/ w = 64)%Z ->
    agrees p (dec_v w (skipn p f)) (is_read_vint B length_i read_i w s).
  Proof.
    intros Hi Hw. unfold is_read_vint, vint_with, VINT_MAX_LEN.
    destruct (Z.ltb_spec (i_len s - Z.of_nat 10) (Z.of_nat (i_pos s))) as [Hc|Hc].
    - pose proof (is_read_byte_ok s p Hi) as HR.
      destruct (nth_error f p) as [b|] eqn:E.
      + destruct HR as (s1 & -> & Hi1). rewrite (skipn_nth_some _ _ _ E). cbn [dec_v].
        assert (Hp : p < length f) by (apply nth_error_Some; congruence).
        destruct (Z.land b 128 =? 0)%Z.
        * exists (S p), s1. fin.
        * pose proof (vint_loop_checked w 12 s1 (S p) (Z.land b 127) 7 Hi1 ltac:(lia) ltac:(lia)) as IH.
          unfold agrees in *.
          destruct (dec_loop _ _ _ (skipn (S p) f)) as [a rest| |]; auto.
          -- destruct IH as (q & s' & Ec & Hi' & Er & Hq). exists q, s'. fin.
          -- destruct IH as (s' & Ec & Hi'). exists s'. split; auto.
             replace (Nat.max p (length f)) with (Nat.max (S p) (length f)) by lia. auto.
      + destruct HR as (s1 & -> & Hi1). destruct (skipn_nth_none _ _ E) as (-> & Hp). cbn [dec_v].
        exists s1; split; auto. replace (Nat.max p (length f)) with p by lia. auto.
    - destruct (read_byte_ok s p Hi) as (b & s1 & -> & E & Hi1 & El & Ep); [lia|].
      rewrite (skipn_nth_some _ _ _ E). cbn [dec_v].
      assert (Hp : p < length f) by (apply nth_error_Some; congruence).
      destruct (Z.land b 128 =? 0)%Z.
      + exists (S p), s1. fin.
      + pose proof (vint_loop_unchecked w 12 s1 (S p) (Z.land b 127) 7 1 Hi1 ltac:(lia) ltac:(lia) ltac:(lia) ltac:(lia) ltac:(lia)) as IH.
        unfold agrees in *.
        destruct (dec_loop _ _ _ (skipn (S p) f)) as [a rest| |]; auto.
        -- destruct IH as (q & s' & Ec & Hi' & Er & Hq). exists q, s'. fin.
        -- destruct IH as (s' & Ec & Hi'). exists s'. split; auto.
           replace (Nat.max p (length f)) with (Nat.max (S p) (length f)) by lia. auto.
  Qed.

  Lemma read_1by1_ok n : forall s p, inv s p ->
    if Nat.leb n (length (skipn p f))
    then exists s', read_bytes_1by1 B length_i read_i n s = (Ok (firstn n (skipn p f)), s') /\ inv s' (p + n)
    else exists s', read_bytes_1by1 B length_i read_i n s = (Err, s') /\ inv s' (Nat.max p (length f)).
  Proof.
    induction n as [|n IH]; intros s p Hi; cbn [read_bytes_1by1].
    - exists s. rewrite Nat.add_0_r. auto.
    - pose proof (is_read_byte_ok s p Hi) as HR.
      destruct (nth_error f p) as [b|] eqn:E.
      + destruct HR as (s1 & -> & Hi1). rewrite (skipn_nth_some _ _ _ E). cbn [length Nat.leb firstn].
        assert (Hp : p < length f) by (apply nth_error_Some; congruence).
        specialize (IH s1 (S p) Hi1). destruct (Nat.leb n (length (skipn (S p) f))).
        * destruct IH as (s' & -> & Hi'). exists s'. split; auto.
          replace (p + S n) with (S p + n) by lia. auto.
        * destruct IH as (s' & -> & Hi'). exists s'. split; auto.
          replace (Nat.max p (length f)) with (Nat.max (S p) (length f)) by lia. auto.
      + destruct HR as (s1 & -> & Hi1). destruct (skipn_nth_none _ _ E) as (-> & Hp). cbn [length Nat.leb].
        exists s1; split; auto. replace (Nat.max p (length f)) with p by lia. auto.
  Qed.

  Definition fixed_dec (n : nat) (dec : list Z -> rd Z) : Prop :=
    forall l, if Nat.leb n (length l)
              then exists v, dec (firstn n l) = ROk v [] /\ dec l = ROk v (skipn n l)
              else dec l = REof.

  Lemma is_read_fixed_ok n dec s p : inv s p -> fixed_dec n dec -> 0 < n ->
    agrees p (dec (skipn p f)) (is_read_fixed B length_i read_i n dec s).
  Proof.
    intros Hi Hd Hn. unfold is_read_fixed. specialize (Hd (skipn p f)).
    pose proof (read_1by1_ok n s p Hi) as HR.
    destruct (Nat.leb_spec n (length (skipn p f))) as [Hle|Hgt].
    - destruct HR as (s' & -> & Hi'). destruct Hd as (v & -> & ->).
      rewrite skipn_length in Hle. exists (p + n), s'. rewrite skipn_skipn'. fin.
    - destruct HR as (s' & -> & Hi'). rewrite Hd. exists s'; auto.
  Qed.

  Lemma is_read_string_ok s p : inv s p ->
    agrees p (dec_str (skipn p f)) (is_read_string B length_i read_i s).
  Proof.
    intros Hi. unfold is_read_string, dec_str.
    pose proof (is_read_vint_ok 32 s p Hi (or_introl eq_refl)) as HV. unfold agrees in HV.
    destruct (dec_v 32 (skipn p f)) as [n rest| |] eqn:Ed.
    - destruct HV as (q & s1 & -> & Hi1 & -> & Hq).
      destruct (Z.leb_spec (2 ^ 31) n) as [Hb|Hb]; [exact Logic.I|].
      set (m := Z.to_nat n).
      assert (Hgoal : forall c : res (list Z) * istream B,
        (if Nat.leb m (length (skipn q f))
         then exists s', c = (Ok (firstn m (skipn q f)), s') /\ inv s' (q + m)
         else exists s', c = (Err, s') /\ inv s' (Nat.max q (length f))) ->
        agrees p (if Nat.ltb (length (skipn q f)) m then REof
                  else ROk (firstn m (skipn q f)) (skipn m (skipn q f))) c).
      { intros c Hc. destruct (Nat.leb_spec m (length (skipn q f))), (Nat.ltb_spec (length (skipn q f)) m); try lia.
        - destruct Hc as (s' & -> & Hi'). exists (q + m), s'. rewrite skipn_skipn'.
          rewrite skipn_length in *. fin.
        - destruct Hc as (s' & -> & Hi'). exists s'; split; auto.
          replace (Nat.max p (length f)) with (Nat.max q (length f)) by lia. auto. }
      destruct (Z.ltb_spec (i_len s1 - n) (Z.of_nat (i_pos s1))) as [Hc|Hc].
      + apply Hgoal. apply read_1by1_ok. exact Hi1.
      + apply Hgoal.
        destruct (Z.leb_spec n 0) as [Hn0|Hn0].
        * assert (Em : m = 0) by lia. rewrite Em. cbn [Nat.leb firstn].
          eexists; split; [reflexivity|]. rewrite !Nat.add_0_r.
          destruct s1; exact Hi1.
        * destruct Hi1 as (Eq & [(len & El & Hl & Hp & Edt & Hbd & HI)|(Hl & _)]); [|lia].
          rewrite skipn_length. destruct (Nat.leb_spec m (length f - q)); [|lia].
          eexists; split.
          -- f_equal. f_equal. rewrite Edt. rewrite skipn_firstn_comm, firstn_firstn, skipn_skipn', Eq.
             f_equal. lia.
          -- split; cbn [i_start i_pos]; [lia|]. left. exists len. cbn [i_len i_pos i_data i_start i_b].
             repeat split; auto; lia.
    - destruct HV as (s1 & -> & Hi1). exists s1; auto.
    - exact Logic.I.
  Qed.

  Lemma skip_one_ok fuel : forall s p, inv s p -> length (skipn p f) < fuel ->
    agrees p (skip_one (skipn p f)) (skip_one_i B length_i read_i fuel s).
  Proof.
    induction fuel as [|fuel IH]; intros s p Hi Hf; [lia|]. cbn [skip_one_i].
    pose proof (is_read_byte_ok s p Hi) as HR.
    destruct (nth_error f p) as [b|] eqn:E.
    - destruct HR as (s1 & -> & Hi1). rewrite (skipn_nth_some _ _ _ E) in *. cbn [skip_one].
      assert (Hp : p < length f) by (apply nth_error_Some; congruence).
      destruct (Z.land b 128 =? 0)%Z.
      + exists (S p), s1. fin.
      + cbn [length] in Hf. specialize (IH s1 (S p) Hi1 ltac:(lia)). unfold agrees in *.
        destruct (skip_one (skipn (S p) f)) as [a rest| |]; auto.
        * destruct IH as (q & s' & Ec & Hi' & Er & Hq). exists q, s'. fin.
        * destruct IH as (s' & Ec & Hi'). exists s'. split; auto.
          replace (Nat.max p (length f)) with (Nat.max (S p) (length f)) by lia. auto.
    - destruct HR as (s1 & -> & Hi1). destruct (skipn_nth_none _ _ E) as (-> & Hp). cbn [skip_one].
      exists s1; split; auto. replace (Nat.max p (length f)) with p by lia. auto.
  Qed.

  Lemma is_skip_vints_ok n : forall s p, inv s p -> p <= length f ->
    agrees p (skip_vints n (skipn p f)) (is_skip_vints B length_i read_i n s).
  Proof.
    induction n as [|n IH]; intros s p Hi Hp; cbn [is_skip_vints skip_vints].
    - exists p, s. fin.
    - destruct (inv_ready s p Hi) as (q0 & HI). rewrite (H_len _ _ HI).
      pose proof (skip_one_ok (S (length f)) s p Hi) as H1.
      rewrite skipn_length in H1. specialize (H1 ltac:(lia)).
      unfold agrees in H1. destruct (skip_one (skipn p f)) as [a rest| |]; auto.
      + destruct H1 as (q & s1 & -> & Hi1 & -> & Hq). specialize (IH s1 q Hi1 ltac:(lia)).
        unfold agrees in *. destruct (skip_vints n (skipn q f)) as [a' rest'| |]; auto.
        * destruct IH as (q' & s' & Ec & Hi' & Er & Hq'). exists q', s'. fin.
        * destruct IH as (s' & Ec & Hi'). exists s'. split; auto.
          replace (Nat.max p (length f)) with (Nat.max q (length f)) by lia. auto.
      + destruct H1 as (s1 & -> & Hi1). exists s1; auto.
  Qed.

  Lemma skip_past n : forall s p, inv s p -> length f < p -> n <> 0 ->
    exists s', is_skip_vints B length_i read_i n s = (Err, s') /\ inv s' p.
  Proof.
    intros s p Hi Hp Hn. destruct n as [|n]; [congruence|]. cbn [is_skip_vints skip_one_i].
    pose proof (is_read_byte_ok s p Hi) as HR.
    destruct (nth_error f p) as [b|] eqn:E.
    - assert (p < length f) by (apply nth_error_Some; congruence). lia.
    - destruct HR as (s1 & -> & Hi1). eauto.
  Qed.

  Lemma is_read_bytes_ok s p n : inv s p ->
    if p + n <=? length f
    then exists s', is_read_bytes B read_i seek_i s n = (Ok (firstn n (skipn p f)), s') /\ inv s' (p + n)
    else match past n with
         | Ok d => exists s', is_read_bytes B read_i seek_i s n = (Ok d, s') /\ inv s' (p + n)
         | Err => exists s', is_read_bytes B read_i seek_i s n = (Err, s') /\ inv s' p
         | UB => True
         end.
  Proof.
    intros Hi. unfold is_read_bytes.
    destruct (Z.ltb_spec (Z.of_nat (i_pos s + n)) (i_len s)) as [Hc|Hc].
    - destruct Hi as (Eq & [(len & El & Hl & Hp & Edt & Hbd & HI)|(Hl & _)]); [|lia].
      destruct (Nat.leb_spec (p + n) (length f)); [|lia].
      eexists; split.
      + f_equal. f_equal. rewrite Edt. rewrite skipn_firstn_comm, firstn_firstn, skipn_skipn', Eq.
        f_equal. lia.
      + split; cbn [i_start i_pos]; [lia|]. left. exists len. cbn [i_len i_pos i_data i_start i_b].
        repeat split; auto; lia.
    - destruct (inv_ready s p Hi) as (q0 & HI). apply (H_seek _ _ (is_pos s)) in HI.
      assert (Ep : is_pos s = p) by (destruct Hi as (-> & _); reflexivity). rewrite Ep in *.
      destruct (Nat.leb_spec (p + n) (length f)) as [Hle|Hgt].
      + destruct (H_read _ _ n HI Hle) as (b' & -> & HI'). eexists; split; [reflexivity|].
        split; cbn [i_start i_pos]; [lia|]. right. cbn [i_len i_start i_pos i_b].
        rewrite Nat.add_0_r. split; [lia|exact HI'].
      + pose proof (H_past _ _ n HI Hgt) as HP. destruct (past n) as [d| |]; auto.
        * destruct HP as (b' & -> & HI'). eexists; split; [reflexivity|].
          split; cbn [i_start i_pos]; [lia|]. right. cbn [i_len i_start i_pos i_b].
          rewrite Nat.add_0_r. split; [lia|exact HI'].
        * destruct HP as (b' & -> & HI'). eexists; split; [reflexivity|].
          destruct Hi as (Eq & Hcase). split; cbn [i_start i_pos]; [exact Eq|].
          cbn [i_len i_start i_pos i_b i_data].
          destruct Hcase as [(len & El & Hl & Hp & Edt & Hbd & HI0)|(Hl & HI0)].
          -- left. exists len. repeat split; auto.
          -- right. auto.
  Qed.

  Lemma is_seek_ok s p q : inv s p -> inv (is_seek B seek_i s q) q.
  Proof.
    intros Hi. destruct (inv_ready s p Hi) as (q0 & HI0). unfold is_seek.
    destruct (Nat.leb_spec (i_start s) q) as [Ha|Ha]; cbn [andb].
    - destruct (Z.ltb_spec (Z.of_nat q) (Z.of_nat (i_start s) + i_len s)) as [Hb|Hb].
      + destruct Hi as (Eq & [(len & El & Hl & Hp & Edt & Hbd & HI)|(Hl & _)]); [|lia].
        split; cbn [i_start i_pos]; [lia|]. left. exists len. cbn [i_len i_pos i_data i_start i_b].
        repeat split; auto; lia.
      + split; cbn [i_start i_pos]; [lia|]. right. cbn [i_len i_start i_pos i_b].
        rewrite Nat.add_0_r. split; [lia|]. eapply H_seek; eauto.
    - split; cbn [i_start i_pos]; [lia|]. right. cbn [i_len i_start i_pos i_b].
      rewrite Nat.add_0_r. split; [lia|]. eapply H_seek; eauto.
  Qed.

  Lemma fixed_u32 : fixed_dec 4 dec_u32.
  Proof. intros [|a [|b [|c [|d l]]]]; cbn; auto. eexists; split; reflexivity. Qed.
  Lemma fixed_i32 : fixed_dec 4 dec_i32.
  Proof. intros [|a [|b [|c [|d l]]]]; cbn; auto. eexists; split; reflexivity. Qed.
  Lemma fixed_u64 : fixed_dec 8 dec_u64.
  Proof. intros [|a [|b [|c [|d [|e [|f' [|g [|h l]]]]]]]]; cbn; auto. eexists; split; reflexivity. Qed.
  Lemma fixed_i64 : fixed_dec 8 dec_i64.
  Proof. intros [|a [|b [|c [|d [|e [|f' [|g [|h l]]]]]]]]; cbn; auto. eexists; split; reflexivity. Qed.

  Lemma agrees_take {A} p (r : rd A) (c : res A * istream B) (v : A -> ival) :
    agrees p r c ->
    match take f p r v with
    | (UB, _) => True
    | (x, q) => exists s', rmap B v c = (x, s') /\ inv s' q
    end.
  Proof.
    unfold agrees, take. destruct r as [a rest| |]; auto.
    - intros (q & s' & -> & Hi & -> & Hq). exists s'. split; auto.
      rewrite skipn_length. replace (length f - (length f - q)) with q by lia. auto.
    - intros (s' & -> & Hi). exists s'. auto.
  Qed.

  Lemma istep_ok s p o : inv s p ->
    match ideal_read past f p o with
    | (UB, _) => True
    | (x, q) => exists s', istep B length_i read_i seek_i s o = (x, s') /\ inv s' q
    end.
  Proof.
    intros Hi. destruct o; cbn [ideal_read istep].
    - pose proof (is_read_byte_ok s p Hi) as HR. destruct (nth_error f p) as [b|] eqn:E.
      + destruct HR as (s' & -> & Hi'). exists s'; auto.
      + destruct HR as (s' & -> & Hi'). exists s'; split; auto.
        apply nth_error_None in E. replace (Nat.max p (length f)) with p by lia. auto.
    - pose proof (is_read_bytes_ok s p n Hi) as HR. destruct (p + n <=? length f).
      + destruct HR as (s' & -> & Hi'). exists s'; auto.
      + destruct (past n) as [d| |]; auto; destruct HR as (s' & -> & Hi'); exists s'; auto.
    - exists (is_seek B seek_i s p0). split; auto. eapply is_seek_ok; eauto.
    - exists s. split; auto. destruct Hi as (-> & _). reflexivity.
    - apply agrees_take, is_read_vint_ok; auto.
    - apply agrees_take, is_read_vint_ok; auto.
    - apply agrees_take, is_read_fixed_ok; auto using fixed_i32; lia.
    - apply agrees_take, is_read_fixed_ok; auto using fixed_u32; lia.
    - apply agrees_take, is_read_fixed_ok; auto using fixed_i64; lia.
    - apply agrees_take, is_read_fixed_ok; auto using fixed_u64; lia.
    - apply agrees_take, is_read_string_ok; auto.
    - destruct n as [|n].
      + exists s. auto.
      + destruct (Nat.leb_spec p (length f)) as [Hp|Hp].
        * apply (agrees_take p _ _ (fun _ => VUnit)), is_skip_vints_ok; auto.
        * rewrite skipn_all2 by lia. cbn [skip_vints skip_one take].
          destruct (skip_past (S n) s p Hi Hp ltac:(lia)) as (s' & -> & Hi').
          exists s'. replace (Nat.max p (length f)) with p by lia. auto.
  Qed.

  Lemma irun_ok ops : forall s p, inv s p ->
    agree_until_ub (ideal_reads past f p ops) (irun B length_i read_i seek_i s ops).
  Proof.
    induction ops as [|o ops IH]; intros s p Hi; cbn [ideal_reads irun].
    - constructor.
    - pose proof (istep_ok s p o Hi) as HS.
      destruct (ideal_read past f p o) as [[x| |] q].
      + destruct HS as (s' & -> & Hi'). constructor. apply IH; auto.
      + destruct HS as (s' & -> & Hi'). constructor. apply IH; auto.
      + constructor.
  Qed.
End In.

(* operating system file *)
Lemma fs_in_correct f ops :
  agree_until_ub (ideal_reads fs_past f 0 ops)
    (irun fsfile fsi_length_i fsi_read_i fsi_seek_i (fs_open_input f) ops).
Proof.
  apply irun_ok with (I := fun b _ => fs_data b = f).
  - intros b p <-. reflexivity.
  - intros b p n <- Hle. unfold fsi_read_i.
    rewrite firstn_length, skipn_length.
    destruct (Nat.eqb_spec (Nat.min n (length (fs_data b) - p)) n); [|lia].
    eexists; split; reflexivity.
  - intros b p n <- Hgt. unfold fsi_read_i, fs_past. destruct n as [|n].
    + cbn [firstn length Nat.eqb]. eexists; split; reflexivity.
    + rewrite firstn_length, skipn_length.
      destruct (Nat.eqb_spec (Nat.min (S n) (length (fs_data b) - p)) (S n)); [lia|].
      eexists; split; [reflexivity|]. auto.
  - intros b p q <-. reflexivity.
  - split; [reflexivity|]. right. split; [cbn; lia|reflexivity].
Qed.

(* in-memory file *)
Lemma cells_map l : cells (map Some l) = Some l.
Proof. induction l as [|x l IH]; cbn; auto. rewrite IH. reflexivity. Qed.

Lemma ram_chunk_slice rf f start n c : ram_holds rf f -> start + n <= length f ->
  start mod BUFFER_SIZE + n <= BUFFER_SIZE -> nth_error (rf_bufs rf) (start / BUFFER_SIZE) = Some c ->
  firstn n (skipn (start mod BUFFER_SIZE) c) = map Some (firstn n (skipn start f)).
Proof.
  intros Hh Hn Hr Ec. pose proof BS_pos as HB. apply list_ext'; intro i.
  rewrite nth_error_firstn, <- firstn_map, nth_error_firstn.
  destruct (Nat.ltb_spec i n) as [Hi|Hi]; [|reflexivity].
  rewrite nth_error_skipn, <- skipn_map, nth_error_skipn.
  pose proof Hh as (Hlen & Hf & Hne & Hc).
  pose proof (ram_holds_nth rf f Hh (start + i) ltac:(lia)) as H.
  rewrite nth_error_concat in H by exact Hf.
  assert (Ed : (start + i) / BUFFER_SIZE = start / BUFFER_SIZE).
  { symmetry. apply (Nat.div_unique _ _ _ (start mod BUFFER_SIZE + i)); [lia|].
    pose proof (Nat.div_mod start BUFFER_SIZE ltac:(lia)). lia. }
  assert (Em : (start + i) mod BUFFER_SIZE = start mod BUFFER_SIZE + i).
  { symmetry. apply (Nat.mod_unique _ _ (start / BUFFER_SIZE)); [lia|].
    pose proof (Nat.div_mod start BUFFER_SIZE ltac:(lia)). lia. }
  rewrite Ed, Em, Ec in H. rewrite H.
  destruct (nth_error f (start + i)) as [x|] eqn:E.
  - rewrite (map_nth_error Some _ _ E). reflexivity.
  - apply nth_error_None in E. lia.
Qed.

Lemma ram_has_chunk rf f start : ram_holds rf f -> start < length f ->
  exists c, nth_error (rf_bufs rf) (start / BUFFER_SIZE) = Some c.
Proof.
  intros Hh Hs. pose proof (ram_holds_nth rf f Hh start Hs) as H.
  destruct Hh as (Hlen & Hf & Hne & Hc). rewrite nth_error_concat in H by exact Hf.
  destruct (nth_error (rf_bufs rf) (start / BUFFER_SIZE)) as [c|]; [eauto|discriminate].
Qed.

Lemma rami_loop_ok rf f : ram_holds rf f -> forall fuel start n, n < fuel -> start + n <= length f ->
  rami_loop fuel (rf_bufs rf) start n = Some (firstn n (skipn start f)).
Proof.
  intros Hh. pose proof BS_pos as HB.
  induction fuel as [|fuel IH]; intros start n Hf Hn; [lia|]. cbn [rami_loop].
  destruct (Nat.ltb_spec 0 n) as [H0|H0].
  - pose proof (Nat.mod_upper_bound start BUFFER_SIZE ltac:(lia)) as Hm.
    set (k := if n <=? BUFFER_SIZE - start mod BUFFER_SIZE then n else BUFFER_SIZE - start mod BUFFER_SIZE).
    assert (Hk : 0 < k <= n /\ start mod BUFFER_SIZE + k <= BUFFER_SIZE).
    { subst k. destruct (Nat.leb_spec n (BUFFER_SIZE - start mod BUFFER_SIZE)); lia. }
    destruct (ram_has_chunk rf f start Hh ltac:(lia)) as (c & Ec). rewrite Ec; cbn [obind].
    rewrite (ram_chunk_slice rf f start k c Hh) by (auto; lia).
    rewrite cells_map; cbn [obind]. rewrite firstn_length, skipn_length.
    destruct (Nat.eqb_spec (Nat.min k (length f - start)) k); [|lia].
    rewrite IH by lia. cbn [obind]. f_equal.
    rewrite <- skipn_skipn'. rewrite <- firstn_add. f_equal. lia.
  - replace n with 0 by lia. reflexivity.
Qed.

Lemma ram_in_correct rf f ops : ram_holds rf f ->
  agree_until_ub (ideal_reads ram_past f 0 ops)
    (irun ramis rami_length_i rami_read_i rami_seek_i (ram_open_input rf) ops).
Proof.
  intros Hh. apply irun_ok with (I := fun b p => ri_file b = rf /\ ri_ptr b = p).
  - intros b p [Ef _]. unfold rami_length_i. rewrite Ef. apply Hh.
  - intros b p n [Ef <-] Hle. unfold rami_read_i. rewrite Ef.
    rewrite (rami_loop_ok rf f Hh) by lia. eexists; split; [reflexivity|]. split; reflexivity.
  - intros b p n [Ef <-] Hgt. unfold ram_past. destruct n as [|n]; [|exact Logic.I].
    unfold rami_read_i. cbn [rami_loop Nat.ltb Nat.leb].
    eexists; split; [reflexivity|]. split; [exact Ef|reflexivity].
  - intros b p q [Ef _]. split; [exact Ef|reflexivity].
  - split; [reflexivity|]. right. split; [cbn; lia|]. split; reflexivity.
Qed.

(* ramo_write_to *)
Lemma write_to_loop_ok rf f : ram_holds rf f -> length f / BUFFER_SIZE < length (rf_bufs rf) ->
  forall cnt i, i + cnt = S (length f / BUFFER_SIZE) ->
  write_to_loop rf i cnt = Some (skipn (i * BUFFER_SIZE) f).
Proof.
  intros Hh Hb. pose proof BS_pos as HB. pose proof Hh as (Hlen & Hf & Hne & Hc).
  pose proof (Nat.div_mod (length f) BUFFER_SIZE ltac:(lia)) as Hdm.
  pose proof (Nat.mod_upper_bound (length f) BUFFER_SIZE ltac:(lia)) as Hm.
  set (q := length f / BUFFER_SIZE) in *. set (r := length f mod BUFFER_SIZE) in *.
  induction cnt as [|cnt IH]; intros i Hi; cbn [write_to_loop].
  - rewrite skipn_all2; [reflexivity|]. nia.
  - rewrite Hlen. fold q r. set (n := if i =? q then r else BUFFER_SIZE).
    destruct (nth_error (rf_bufs rf) i) as [c|] eqn:Ec; [|apply nth_error_None in Ec; lia].
    cbn [obind].
    assert (Hn : i * BUFFER_SIZE + n <= length f /\ n <= BUFFER_SIZE).
    { subst n. destruct (Nat.eqb_spec i q); nia. }
    assert (Ed : i * BUFFER_SIZE / BUFFER_SIZE = i) by (apply Nat.div_mul; lia).
    assert (Em : i * BUFFER_SIZE mod BUFFER_SIZE = 0) by (apply Nat.mod_mul; lia).
    pose proof (ram_chunk_slice rf f (i * BUFFER_SIZE) n c Hh) as HS.
    rewrite Ed, Em in HS. cbn [skipn] in HS. rewrite HS by (auto; lia).
    rewrite cells_map; cbn [obind]. rewrite IH by lia. cbn [obind]. f_equal.
    rewrite <- (firstn_skipn n (skipn (i * BUFFER_SIZE) f)) at 2. f_equal.
    rewrite skipn_skipn'.
    destruct (Nat.eqb_spec i q) as [->|Hne'].
    + rewrite !skipn_all2; auto; subst n; nia.
    + f_equal. subst n. nia.
Qed.

Lemma ramo_write_to_ok s d q : rep ramos ram_os_holds within s d q ->
  length d mod BUFFER_SIZE <> 0 \/ d = [] -> ramo_write_to s = Some d.
Proof.
  intros Hr Hd. unfold ramo_write_to. pose proof BS_pos as HB.
  destruct (rep_flush ramos ramo_flush_i ramo_seek_i ram_os_holds within ram_flush_ok ram_seek_ok within_write
                _ _ _ Hr) as (s1 & E & _ & _ & Hh & _). rewrite E; cbn [obind].
  pose proof Hh as (Hlen & Hf & Hne & Hc). rewrite Hlen.
  rewrite (write_to_loop_ok _ d Hh); auto.
  destruct Hd as [Hm| ->].
  - destruct d as [|x d]; [exfalso; apply Hm; apply Nat.mod_0_l; lia|]. set (l := x :: d) in *.
    assert (Hl : 0 < length l) by (subst l; cbn; lia).
    destruct (ram_has_chunk _ l (length l - 1) Hh ltac:(lia)) as (c & Ec).
    assert (nth_error (rf_bufs (ro_file (o_b s1))) ((length l - 1) / BUFFER_SIZE) <> None) as Hn by congruence.
    apply nth_error_Some in Hn.
    replace (length l / BUFFER_SIZE) with ((length l - 1) / BUFFER_SIZE); [exact Hn|].
    symmetry. pose proof (Nat.div_mod (length l) BUFFER_SIZE ltac:(lia)).
    pose proof (Nat.mod_upper_bound (length l) BUFFER_SIZE ltac:(lia)).
    apply (Nat.div_unique _ _ _ (length l mod BUFFER_SIZE - 1)); lia.
  - cbn [length]. rewrite Nat.div_0_l by lia. destruct (rf_bufs _); [congruence|cbn; lia].
Qed.

Lemma ramo_write_to_run ops d : Forall values_ok ops -> seeks_within (mkOf [] 0) ops ->
  ideal_run (mkOf [] 0) ops = Some d ->
  length (f_data d) mod BUFFER_SIZE <> 0 \/ f_data d = [] ->
  exists s, orun ramos ramo_flush_i ramo_seek_i (ram_new_output None) ops = Some s /\
    ramo_write_to s = Some (f_data d).
Proof.
  intros Hv Hs Ef Hd.
  destruct (rep_run ramos ramo_flush_i ramo_seek_i ram_os_holds within ram_flush_ok ram_seek_ok within_write
              ops (ram_new_output None) [] 0 d) as (s & Es & Hr).
  - exists []. split; [|split; [unfold within; cbn; lia|split; [cbn; lia|split; reflexivity]]].
    split; [|reflexivity]. apply ram_holds_new.
  - exact Ef.
  - apply seeks_ok_ram; exact Hs.
  - exists s; split; [exact Es|]. eapply ramo_write_to_ok; eauto.
Qed.

Lemma put_pwrite f p bs : f_data (put (mkOf f p) bs) = pwrite f p bs.
Proof. destruct bs; reflexivity. Qed.

Lemma ram_writes_ok ws : forall b f p, ram_os_holds b f p -> writes_within f ws ->
  exists b' p', ram_writes b ws = Some b' /\ ram_os_holds b' (flat_writes f ws) p'.
Proof.
  induction ws as [|[p bs] ws IH]; intros b f p0 Hh Hw; cbn [ram_writes flat_writes writes_within] in *.
  - eauto.
  - destruct Hw as (Hp & Hl & Hw). rewrite put_pwrite in *.
    destruct (ram_flush_ok (ramo_seek_i b p) f p bs) as (b' & E & Hh'); auto.
    { split; [apply Hh|reflexivity]. }
    rewrite E; cbn [obind]. eapply IH; eauto.
Qed.

Lemma ram_flat ws : writes_within [] ws ->
  exists b, ram_writes (mkRo rf_new 0) ws = Some b /\
    rf_len (ro_file b) = length (flat_writes [] ws) /\
    forall p n, p + n <= length (flat_writes [] ws) ->
      fst (rami_read_i (mkRi (ro_file b) p) p n) = Ok (firstn n (skipn p (flat_writes [] ws))).
Proof.
  intros Hw. destruct (ram_writes_ok ws (mkRo rf_new 0) [] 0) as (b & p' & E & Hh & _); auto.
  { split; [apply ram_holds_new|reflexivity]. }
  exists b; split; [exact E|]. split; [apply Hh|].
  intros p n Hn. unfold rami_read_i. cbn [ri_file ri_ptr].
  rewrite (rami_loop_ok _ _ Hh) by lia. reflexivity.
Qed.

Lemma ideal_run_written ops : forall d w, Forall no_seek ops ->
  ideal_run (mkOf (pwrite d 0 w) (length w)) ops =
  do v <- written ops; Some (mkOf (pwrite d 0 (w ++ v)) (length (w ++ v))).
Proof.
  induction ops as [|o ops IH]; intros d w Hn; cbn [ideal_run written].
  - cbn [obind]. rewrite app_nil_r. reflexivity.
  - inversion Hn as [|? ? Ho Hops]; subst.
    assert (Es : ideal_step (mkOf (pwrite d 0 w) (length w)) o =
                 do bs <- op_bytes o; Some (put (mkOf (pwrite d 0 w) (length w)) bs)).
    { destruct o; try reflexivity. destruct Ho. }
    rewrite Es. destruct (op_bytes o) as [bs|]; cbn [obind]; [|reflexivity].
    assert (Ep : put (mkOf (pwrite d 0 w) (length w)) bs = mkOf (pwrite d 0 (w ++ bs)) (length (w ++ bs))).
    { rewrite <- (pwrite_app d 0 w bs). cbn [Nat.add]. destruct bs as [|b bs].
      - rewrite app_nil_r. reflexivity.
      - rewrite app_length. reflexivity. }
    rewrite Ep, IH by auto. destruct (written ops) as [v|]; cbn [obind]; [|reflexivity].
    rewrite app_assoc. reflexivity.
Qed.

Lemma pwrite_0 d w : pwrite d 0 w = w ++ skipn (length w) d.
Proof. destruct w; [reflexivity|]. cbn [pwrite firstn app Nat.add]. reflexivity. Qed.

Lemma fs_output_exact old ops w : Forall values_ok ops -> Forall no_seek ops -> written ops = Some w ->
  exists s s', orun fsfile fso_flush_i fso_seek_i (fs_new_output old) ops = Some s /\
    os_flush fsfile fso_flush_i s = Some s' /\
    fs_data (o_b s') = w ++ skipn (length w) (match old with Some d => d | None => [] end).
Proof.
  intros Hv Hn Hw. destruct (fs_out_correct old ops Hv) as (f & s & s' & Ef & Es & _ & E' & Ed & _).
  exists s, s'. split; [exact Es|]. split; [exact E'|]. rewrite Ed.
  pose proof (ideal_run_written ops (match old with Some d => d | None => [] end) [] Hn) as H.
  cbn [pwrite length app] in H. rewrite Ef, Hw in H. cbn [obind] in H.
  apply some_inj in H. rewrite H. cbn [f_data]. apply pwrite_0.
Qed.

Lemma seeks_within_no_seek ops : forall f, Forall no_seek ops -> seeks_within f ops.
Proof.
  induction ops as [|o ops IH]; intros f Hn; cbn [seeks_within]; auto.
  inversion Hn; subst. split; [destruct o; auto; contradiction|].
  destruct (ideal_step f o); auto.
Qed.

Lemma ram_output_exact old d ops w :
  (match old with Some rf => ram_holds rf d | None => d = [] end) ->
  Forall values_ok ops -> Forall no_seek ops -> written ops = Some w ->
  exists s s', orun ramos ramo_flush_i ramo_seek_i (ram_new_output old) ops = Some s /\
    os_flush ramos ramo_flush_i s = Some s' /\
    ram_holds (ro_file (o_b s')) (w ++ skipn (length w) d).
Proof.
  intros Hold Hv Hn Hw.
  destruct (ram_out_correct old d ops Hold Hv (seeks_within_no_seek _ _ Hn)) as (f & s & s' & Ef & Es & _ & E' & Hh & _).
  exists s, s'. split; [exact Es|]. split; [exact E'|].
  pose proof (ideal_run_written ops d [] Hn) as H.
  cbn [pwrite length app] in H. rewrite Ef, Hw in H. cbn [obind] in H.
  apply some_inj in H. rewrite H in Hh. cbn [f_data] in Hh. rewrite pwrite_0 in Hh. exact Hh.
Qed.
