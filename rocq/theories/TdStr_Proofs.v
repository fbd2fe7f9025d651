(* Proofs about TopDocs#to_s. *)
From Coq Require Import String Ascii.
From Verif Require Import Util Json_Model Json_Spec Json_Proofs Json_Proofs2 TdStr_Model TdStr_Spec.
Open Scope Z_scope.

Lemma int_decimal n : 0 <= n < 2147483648 -> decimal n (int_s n).
Proof.
  intros H. unfold int_s. destruct (digits_read 9 n) as (A & B & C & D); [cbn; lia|]. repeat split; auto. intros E.
  destruct (Z.eq_dec n 0) as [->|N]; [reflexivity|]. destruct (D N E).
Qed.
Lemma digits_short f : forall g n, 0 <= n < 10 ^ (Z.of_nat f + 1) -> (f <= g)%nat -> len (digits g n) <= Z.of_nat f + 1.
Proof.
  induction f as [|f IH]; intros g n H G.
  - destruct g; cbn [digits]; [unfold len; cbn; lia|]. destruct (Z.ltb_spec n 10); [unfold len; cbn; lia|]. cbn in H. lia.
  - destruct g as [|g]; [lia|]. cbn [digits]. destruct (Z.ltb_spec n 10); [unfold len; cbn; lia|]. rewrite len_app, len_cons. change (len (@nil Z)) with 0.
    assert (len (digits g (n / 10)) <= Z.of_nat f + 1); [|lia]. apply IH; [|lia]. rewrite Nat2Z.inj_succ, Z.pow_add_r in H by lia. replace (Z.succ (Z.of_nat f)) with (Z.of_nat f + 1) in H by lia.
    split; [apply Z.div_pos; lia|]. apply Z.div_lt_upper_bound; lia.
Qed.
Lemma doc_len n : 0 <= n < 1000000000 -> len (int_s n) <= 9.
Proof. intros H. apply (digits_short 8 9 n); [cbn; lia|lia]. Qed.
Lemma c_str_id v : Forall (fun c => c <> 0) v -> c_str v = v.
Proof. induction 1 as [|c v H _ IH]; cbn [c_str]; [reflexivity|]. destruct (Z.eqb_spec c 0); [contradiction|]. rewrite IH. reflexivity. Qed.
Lemma value_ok h : hit_ok h -> exists v, h_value h = Some v /\ shown (h_field h) v.
Proof.
  intros (_ & _ & H). unfold h_value. destruct (h_field h) as [[|v l]|]; [destruct H| |].
  - exists v. rewrite c_str_id by auto. split; [reflexivity|constructor].
  - exists []. split; [reflexivity|constructor].
Qed.
Lemma line_len h v : hit_ok h -> len (hit_line h v) <= len v + 61.
Proof.
  intros (D & S & _). pose proof (doc_len _ D). unfold hit_line. rewrite !len_app, !len_cons. change (len (@nil Z)) with 0. unfold bytes in S. unfold len in *. lia.
Qed.
Lemma hits_ok : forall hs x c, Forall hit_ok hs -> len x + 3 <= c ->
  exists ls c', to_s_hits (bk x c) hs = Some (bk (x ++ List.concat ls) c') /\ Forall2 a_line hs ls /\ len (x ++ List.concat ls) + 3 <= c'.
Proof.
  induction hs as [|h t IH]; intros x c H L.
  - exists [], c. cbn. rewrite app_nil_r. auto.
  - inversion H as [|? ? H1 H2]; subst. destruct (value_ok h H1) as (v & V & W). cbn [to_s_hits]. rewrite V. cbn [obind].
    pose proof (line_len h v H1) as N. pose proof (len_nn v). pose proof (len_nn x).
    assert (R : exists c', to_s_room (bk x c) (len v) (len (h :: t)) = bk x c' /\ len x + len v + 64 <= c').
    { unfold to_s_room, bk. cbn [b_capa b_text b_gone]. destruct (Z.ltb_spec c (len x + len v + 64)); [|exists c; split; [reflexivity|lia]].
      eexists. split; [reflexivity|]. rewrite len_cons. pose proof (len_nn t). nia. }
    destruct R as (c' & -> & R). rewrite print_ok by lia. cbn [obind]. destruct (IH (x ++ hit_line h v) c' H2) as (ls & c2 & E & F & G); [rewrite len_app; lia|].
    exists (hit_line h v :: ls), c2. cbn [List.concat]. rewrite app_assoc. split; [exact E|]. split; [|exact G]. constructor; [|exact F].
    exists (int_s (h_doc h)), v. split; [apply int_decimal; destruct H1; lia|]. split; [exact W|reflexivity].
Qed.
Lemma to_s_says total max hs : 0 <= total < 2147483648 -> bytes max <= 48 -> Forall hit_ok hs -> exists x, frb_td_to_s total max hs = Some x /\ says total max hs x.
Proof.
  intros T M H. unfold frb_td_to_s. change (mkB [] (len hs * 64 + 100) false) with (bk [] (len hs * 64 + 100)).
  assert (L : len (to_s_head total max) + 3 <= 100).
  { unfold to_s_head. rewrite !len_app. change (len (lit "TopDocs: total_hits = ")) with 22. change (len (lit ", max_score = ")) with 14. change (len [32; 91; 10]) with 3. pose proof (int_len total). unfold bytes in M. unfold len in *. lia. }
  pose proof (len_nn hs). rewrite print_ok by (change (len (@nil Z)) with 0; lia). cbn [obind]. destruct (hits_ok hs ([] ++ to_s_head total max) (len hs * 64 + 100) H) as (ls & c & E & F & G); [cbn [app]; lia|].
  rewrite E. cbn [obind]. rewrite print_ok by (change (len [93; 10]) with 2; lia). cbn [obind]. eexists. split; [reflexivity|].
  exists (int_s total), ls. split; [apply int_decimal; auto|]. split; [exact F|]. cbn [b_text bk app]. unfold to_s_head. rewrite <- !app_assoc. reflexivity.
Qed.
Lemma to_s_null total max hs : Exists (fun h => h_field h = Some []) hs -> frb_td_to_s total max hs = None.
Proof.
  intros H. unfold frb_td_to_s. destruct (print _ _) as [b|]; [|reflexivity]. cbn [obind].
  assert (E : forall b, to_s_hits b hs = None); [|rewrite E; reflexivity]. clear b. induction H as [h t H|h t H IH]; intros b; cbn [to_s_hits].
  - unfold h_value. rewrite H. reflexivity.
  - destruct (h_value h) as [v|]; [|reflexivity]. cbn [obind]. destruct (print _ _) as [b1|]; [|reflexivity]. apply IH.
Qed.
