From Coq Require Import String Ascii.
From Verif Require Import Util Json_Model Json_Spec Json_Proofs.
Open Scope Z_scope.

(* texts that are values, whatever follows; or what follows but for a digit *)
Definition closed (e : list Z) (v : jval) : Prop := forall r, reads (e ++ r) v r.
Definition elem (e : list Z) (v : jval) : Prop := forall c r, ~ digit c -> reads (e ++ c :: r) v (c :: r).
Lemma closed_elem e v : closed e v -> elem e v.
Proof. intros H c r _. apply H. Qed.
Lemma value_app a c : value_of (a ++ [c]) = 10 * value_of a + (c - 48).
Proof. unfold value_of. rewrite fold_left_app. reflexivity. Qed.
Lemma digits_read f : forall n, 0 <= n < 10 ^ (Z.of_nat f + 1) -> Forall digit (digits f n) /\ value_of (digits f n) = n /\ digits f n <> [] /\ (n <> 0 -> hd 0 (digits f n) <> 48).
Proof.
  assert (B : forall n, 0 <= n < 10 -> Forall digit [48 + n] /\ value_of [48 + n] = n /\ [48 + n] <> [] /\ (n <> 0 -> hd 0 [48 + n] <> 48)). { intros n H. split; [repeat constructor; lia|]. split; [unfold value_of; cbn [fold_left]; lia|]. split; [discriminate|]. cbn [hd]. lia. }
  induction f as [|f IH]; intros n H; cbn [digits]; [apply B; exact H|]. destruct (Z.ltb_spec n 10) as [L|L]; [apply B; lia|].
  assert (N : 0 <= n / 10 < 10 ^ (Z.of_nat f + 1)). { split; [apply Z.div_pos; lia|]. apply Z.div_lt_upper_bound; [lia|]. replace (Z.of_nat (S f) + 1) with (Z.succ (Z.of_nat f + 1)) in H by lia. rewrite Z.pow_succ_r in H by lia. lia. }
  destruct (IH _ N) as (D & V & NE & H0). pose proof (Z.mod_pos_bound n 10 ltac:(lia)) as M. pose proof (Z.div_mod n 10 ltac:(lia)) as DM. split; [apply Forall_app; split; auto; repeat constructor; lia|]. split; [rewrite value_app, V; lia|]. split; [destruct (digits f (n / 10)); discriminate|].
  intros _. assert (n / 10 <> 0) by (pose proof (Z.div_le_mono 10 n 10 ltac:(lia) L); change (10 / 10) with 1 in *; lia). destruct (digits f (n / 10)) as [|d l] eqn:E; [congruence|]. cbn [app hd] in *. auto.
Qed.
Lemma elem_num n : an_int n -> elem (int_s n) (JNum n).
Proof.
  intros H c r Hc. destruct (digits_read 9 n) as (D & V & NE & H0); [split; [apply H|]; destruct H; change (10 ^ (Z.of_nat 9 + 1)) with 10000000000; lia|]. fold (int_s n) in *. rewrite <- V at 2. constructor; auto. intros E. destruct (Z.eq_dec n 0) as [->|Z0]; [reflexivity|]. destruct (H0 Z0). exact E.
Qed.
Lemma chars_plain s : plain s -> forall r, chars (s ++ 34 :: r) s r.
Proof. induction 1 as [|c s (H1 & H2 & H3) F IH]; intros r; cbn [app]; constructor; auto. Qed.
Lemma plain_c_str s : plain s -> c_str s = s.
Proof. induction 1 as [|c s (H1 & _) F IH]; cbn [c_str]; [reflexivity|]. destruct (Z.eqb_spec c 0); [lia|]. rewrite IH. reflexivity. Qed.
Lemma plain_quoted s : plain s -> quoted s = 34 :: s ++ [34].
Proof. intros H. unfold quoted. rewrite plain_c_str by auto. cbn [app]. do 2 f_equal. induction H as [|c s (_ & H2 & _) F IH]; cbn [flat_map]; [reflexivity|]. destruct (Z.eqb_spec c 34); [contradiction|]. cbn [app]. rewrite IH. reflexivity. Qed.
Lemma closed_str s : plain s -> closed (quoted s) (JStr s).
Proof. intros H r. rewrite plain_quoted by auto. cbn [app]. rewrite <- app_assoc. constructor. apply chars_plain. auto. Qed.
Lemma items_commas es vs : Forall2 elem es vs -> es <> [] -> forall r, items (commas es ++ 93 :: r) vs r.
Proof.
  intros F NE r. destruct F as [|e v es vs H F]; [congruence|]. cbn [commas]. clear NE. revert e v H. induction F as [|e' v' es vs H' F IH]; intros e v H; cbn [flat_map].
  - rewrite app_nil_r. constructor. apply H. unfold digit. lia.
  - rewrite <- !app_assoc. cbn [app]. eapply I_more; [apply H; unfold digit; lia|]. specialize (IH e' v' H'). rewrite <- app_assoc in IH. rewrite <- ?app_assoc. exact IH.
Qed.
Lemma closed_arr es vs : Forall2 elem es vs -> closed ([91] ++ commas es ++ [93]) (JArr vs).
Proof.
  intros F r. rewrite <- !app_assoc. cbn [app]. destruct F as [|e v es vs H F]; [cbn; constructor|]. apply R_arr. apply items_commas; [constructor; auto|discriminate].
Qed.
Definition mem (e : list Z) (kv : list Z * jval) : Prop := exists e', e = [34] ++ fst kv ++ [34; 58] ++ e' /\ plain (fst kv) /\ elem e' (snd kv).
Lemma members_commas es vs : Forall2 mem es vs -> es <> [] -> forall r, members (commas es ++ 125 :: r) vs r.
Proof.
  intros F NE r. destruct F as [|e v es vs H F]; [congruence|]. cbn [commas]. clear NE. revert e v H. induction F as [|e1 v1 es vs H' F IH]; intros e [k v] (e' & -> & Hk & H); cbn [flat_map fst snd] in *.
  - rewrite app_nil_r. rewrite <- !app_assoc. cbn [app]. eapply O_last; [apply chars_plain; auto|]. apply H. unfold digit. lia.
  - rewrite <- !app_assoc. cbn [app]. eapply O_more; [apply chars_plain; auto|apply H; unfold digit; lia|]. specialize (IH e1 v1 H'). rewrite <- app_assoc in IH. rewrite <- ?app_assoc. exact IH.
Qed.
Lemma closed_obj es vs : Forall2 mem es vs -> closed ([123] ++ commas es ++ [125]) (JObj vs).
Proof.
  intros F r. rewrite <- !app_assoc. cbn [app]. destruct F as [|e v es vs H F]; [cbn; constructor|]. apply R_obj. apply members_commas; [constructor; auto|discriminate].
Qed.
Lemma F2_map {X Y Z : Type} (R : Y -> Z -> Prop) (g : X -> Y) (h : X -> Z) l : Forall (fun x => R (g x) (h x)) l -> Forall2 R (map g l) (map h l).
Proof. induction 1; cbn [map]; constructor; auto. Qed.
Lemma mem_lit k e v : plain k -> elem e v -> mem ([34] ++ k ++ [34; 58] ++ e) (k, v).
Proof. intros. exists e. auto. Qed.
Lemma name_plain (s : string) : Forall (fun c => 32 <= c /\ c <> 34 /\ c <> 92) (name s) -> plain (name s).
Proof. auto. Qed.
Ltac pl := unfold plain; vm_compute; repeat constructor; discriminate.
Lemma te_elem fast t : plain (fst t) -> an_int (snd t) -> elem (te_body fast t) (a_term fast t).
Proof.
  intros H N. unfold te_body, a_term. apply closed_elem. destruct fast.
  - replace ([91] ++ quoted (fst t) ++ [44] ++ int_s (snd t) ++ [93]) with ([91] ++ commas [quoted (fst t); int_s (snd t)] ++ [93]); [apply closed_arr; constructor; [apply closed_elem, closed_str; auto|constructor; [apply elem_num; auto|constructor]]|]. cbn [commas flat_map app]. rewrite app_nil_r, <- app_assoc. reflexivity.
  - replace ([123] ++ lit """term"":" ++ quoted (fst t) ++ [44] ++ lit """frequency"":" ++ int_s (snd t) ++ [125]) with ([123] ++ commas [[34] ++ name "term" ++ [34; 58] ++ quoted (fst t); [34] ++ name "frequency" ++ [34; 58] ++ int_s (snd t)] ++ [125]).
    + apply closed_obj. constructor; [apply mem_lit; [pl|apply closed_elem, closed_str; auto]|constructor; [apply mem_lit; [pl|apply elem_num; auto]|constructor]].
    + cbn [commas flat_map]. rewrite app_nil_r. rewrite <- !app_assoc. reflexivity.
Qed.
Lemma te_json moves fast ts : Forall (fun t => plain (fst t) /\ 3 * bytes (fst t) + 100 <= 65536 /\ an_int (snd t)) ts -> (forall n, moves n = false) \/ te_sum ts + 3 <= 65536 ->
  exists x, frb_te_to_json moves fast ts = Some x /\ json x (JArr (map (a_term fast) ts)).
Proof.
  intros H M. eexists. split; [apply te_text; auto; eapply Forall_impl; [|exact H]; intros a (_ & X & (Y & _)); auto|]. unfold json. match goal with |- reads ?x _ _ => rewrite <- (app_nil_r x) end. apply closed_arr. apply F2_map. eapply Forall_impl; [|exact H]. intros t (X & _ & Y). apply te_elem; auto.
Qed.

(* documents *)
Definition tde_body (pos fast : bool) (e : Z * Z * list Z) : list Z :=
  let '(d, f, ps) := e in
  if pos then
    if fast then [91] ++ commas [int_s d; int_s f; [91] ++ commas (map int_s ps) ++ [93]] ++ [93]
    else [123] ++ commas [[34] ++ name "document" ++ [34; 58] ++ int_s d; [34] ++ name "frequency" ++ [34; 58] ++ int_s f; [34] ++ name "positions" ++ [34; 58] ++ [91] ++ commas (map int_s ps) ++ [93]] ++ [125]
  else
    if fast then [91] ++ commas [int_s d; int_s f] ++ [93]
    else [123] ++ commas [[34] ++ name "document" ++ [34; 58] ++ int_s d; [34] ++ name "frequency" ++ [34; 58] ++ int_s f] ++ [125].
Lemma positions_ok ps : forall x c, len x + 11 * len ps + 2 <= c -> tde_positions (bk x c) ps = Some (bk (x ++ flat_map (fun p => int_s p ++ [44]) ps) c).
Proof.
  induction ps as [|p ps IH]; intros x c H; cbn [tde_positions flat_map]; [rewrite app_nil_r; reflexivity|]. pose proof (int_len p). revert H. lens. intros H. pose proof (len_nn ps). rewrite print_ok by (lens; lia). cbn [obind]. rewrite IH by (lens; lia). rewrite <- !app_assoc. reflexivity.
Qed.
Lemma flat_bound ps : len (flat_map (fun p => int_s p ++ [44]) ps) <= 11 * len ps.
Proof. induction ps as [|p ps IH]; cbn [flat_map]; lens; [lia|]. pose proof (int_len p). lia. Qed.
Lemma tde_format_len pos fast d f : len (tde_format pos fast d f) <= 60.
Proof. pose proof (int_len d). pose proof (int_len f). unfold tde_format. destruct pos, fast; write. Qed.
Lemma drop_commas x es c : last (x ++ [91]) 0 <> 44 -> drop_comma (bk ((x ++ [91]) ++ flat_map (fun e => e ++ [44]) es) c) = bk ((x ++ [91]) ++ commas es) c.
Proof.
  intros _. unfold drop_comma, bk. cbn [b_text b_capa b_gone]. destruct es as [|e l].
  - cbn [flat_map commas]. rewrite app_nil_r. rewrite last_snoc. reflexivity.
  - rewrite (commas_end (e :: l)) by discriminate. rewrite app_assoc. rewrite last_snoc. change (44 =? 44) with true. cbn iota. rewrite removelast_last. reflexivity.
Qed.
Lemma tde_next_ok moves pos fast x c d f ps : 65536 <= c -> len x + 2 <= c -> (pos = true -> f = len ps) -> 0 <= f -> 20 * f + 100 <= 65536 -> moves (2 * c) = false \/ 20 * f + len x + 100 <= c ->
  exists c', tde_next moves pos fast (bk x c) d f ps = Some (bk (x ++ tde_body pos fast (d, f, ps) ++ [44]) c') /\ c <= c' /\ len (x ++ tde_body pos fast (d, f, ps) ++ [44]) + 2 <= c' /\ (20 * f + len x + 100 <= c -> c' = c) /\ len (tde_body pos fast (d, f, ps) ++ [44]) <= 20 * f + 100.
Proof.
  intros H1 H2 HF F0 H3 H4. pose proof (tde_format_len pos fast d f) as Lf. pose proof (len_nn x). unfold tde_next. assert (M : moves (2 * c) = false \/ f * 20 + len x + 100 <= c) by (destruct H4; [left; auto|right; lia]). destruct (room_ok moves x c (f * 20)) as (c' & E & L1 & L2 & L3); auto; try lia. rewrite E. rewrite print_ok by lia. cbn [obind]. exists c'.
  assert (R : exists t, (if pos then do b3 <- tde_positions (bk (x ++ tde_format pos fast d f) c') ps; put (drop_comma b3) [93; if fast then 93 else 125; 44] else Some (bk (x ++ tde_format pos fast d f) c')) = Some (bk (x ++ t) c') /\ t = tde_body pos fast (d, f, ps) ++ [44] /\ len t <= 60 + 11 * f + 3).
  { destruct pos.
    - specialize (HF eq_refl). rewrite positions_ok by (lens; lia). cbn [obind]. pose proof (flat_bound ps) as FB. rewrite (flat_map_map int_s) in FB |- *.
      assert (EF : exists y, tde_format true fast d f = y ++ [91]) by (unfold tde_format; destruct fast; eexists; [rewrite !app_assoc; change [44; 91] with ([44] ++ [91]); rewrite !app_assoc; reflexivity|change (lit ",""positions"":[") with (lit ",""positions"":" ++ [91]); rewrite !app_assoc; reflexivity]).
      destruct EF as (y & EF). rewrite EF. rewrite (app_assoc x y). rewrite drop_commas by (rewrite last_snoc; discriminate).
      assert (LC : len (commas (map int_s ps)) <= 11 * f). { rewrite HF. destruct ps as [|p ps]; [cbn [map commas]; lens; lia|]. rewrite (commas_end (map int_s (p :: ps))) in FB by discriminate. rewrite len_app in FB. pose proof (len_nn [44]). lia. }
      rewrite EF in Lf. revert Lf. lens. intros Lf. exists (y ++ [91] ++ commas (map int_s ps) ++ [93; if fast then 93 else 125; 44]). rewrite put_ok by (lens; lia). split; [rewrite <- !app_assoc; reflexivity|]. split; [|lens; lia].
      rewrite (app_assoc y). rewrite <- EF. unfold tde_format, tde_body. destruct fast; cbn [commas flat_map]; rewrite app_nil_r; repeat (cbn [app]; rewrite <- ?app_assoc); reflexivity.
    - eexists. split; [reflexivity|]. split; [|lia]. unfold tde_format, tde_body. destruct fast; cbn [commas flat_map]; rewrite app_nil_r; repeat (cbn [app]; rewrite <- ?app_assoc); reflexivity. }
  destruct R as (t & R1 & R2 & R3). rewrite R1. rewrite <- R2. split; [reflexivity|]. split; auto. split; [lens; lia|]. split; [intros; apply L3; lia|lia].
Qed.
Definition tde_sum (es : list (Z * Z * list Z)) : Z := fold_right (fun e n => 20 * snd (fst e) + 100 + n) 0 es.
Lemma tde_loop_ok moves pos fast es : forall x c, 65536 <= c -> len x + 2 <= c -> Forall (fun e => (pos = true -> snd (fst e) = bytes (snd e)) /\ 0 <= snd (fst e) /\ 20 * snd (fst e) + 100 <= 65536) es -> (forall n, moves n = false) \/ len x + tde_sum es + 2 <= c ->
  exists c', tde_loop moves pos fast (bk x c) es = Some (bk (x ++ flat_map (fun e => tde_body pos fast e ++ [44]) es) c') /\ len (x ++ flat_map (fun e => tde_body pos fast e ++ [44]) es) + 2 <= c'.
Proof.
  induction es as [|[[d f] ps] es IH]; intros x c H1 H2 H3 H4; cbn [tde_loop flat_map]; [exists c; rewrite app_nil_r; auto|]. inversion H3 as [|? ? (A1 & A2 & A3) B]; subst. cbn [fst snd] in *. assert (S0 : 0 <= tde_sum es). { clear - B. unfold tde_sum. induction B as [|e es (_ & X & _) B IH]; cbn [fold_right]; lia. }
  cbn [tde_sum fold_right fst snd] in H4. fold (tde_sum es) in H4. destruct (tde_next_ok moves pos fast x c d f ps) as (c1 & E & L1 & L2 & L3 & L4); auto; [destruct H4; [left; auto|right; lia]|]. rewrite E. cbn [obind]. destruct (IH (x ++ tde_body pos fast (d, f, ps) ++ [44]) c1) as (c' & E' & L'); auto; try lia.
  - destruct H4 as [H4|H4]; [left; auto|right]. rewrite L3 by lia. rewrite len_app. lia.
  - exists c'. rewrite E'. rewrite <- !app_assoc in *. auto.
Qed.
Lemma tde_body_nz pos fast e : 0 <= fst (fst e) -> 0 <= snd (fst e) -> Forall (fun p => 0 <= p) (snd e) -> nz (tde_body pos fast e).
Proof.
  destruct e as [[d f] ps]. cbn [fst snd]. intros Hd Hf Hp. pose proof (digits_nz 9 d Hd) as D1. pose proof (digits_nz 9 f Hf) as D2. fold (int_s d) in D1. fold (int_s f) in D2. assert (C : nz (commas (map int_s ps))) by (apply commas_nz, Forall_map; eapply Forall_impl; [|exact Hp]; intros a Ha; apply (digits_nz 9); exact Ha).
  assert (K : forall s, forallb (fun c => negb (c =? 0)) s = true -> nz s) by (intros s Hs; apply Forall_forall; intros c Hc; rewrite forallb_forall in Hs; specialize (Hs c Hc); destruct (Z.eqb_spec c 0); [discriminate|auto]).
  unfold tde_body. destruct pos, fast; repeat match goal with |- nz (commas (map _ _)) => exact C | |- nz (commas _) => apply commas_nz | |- Forall nz (_ :: _) => apply Forall_cons | |- Forall nz [] => apply Forall_nil | |- nz (int_s d) => exact D1 | |- nz (int_s f) => exact D2 | |- nz (_ ++ _) => apply nz_app | |- nz _ => apply K; reflexivity end.
Qed.
Lemma tde_elem pos fast e : an_int (fst (fst e)) -> an_int (snd (fst e)) -> Forall an_int (snd e) -> elem (tde_body pos fast e) (a_doc pos fast e).
Proof.
  destruct e as [[d f] ps]. cbn [fst snd]. intros Hd Hf Hp. assert (C : closed ([91] ++ commas (map int_s ps) ++ [93]) (JArr (map JNum ps))) by (apply closed_arr, F2_map; eapply Forall_impl; [|exact Hp]; intros a Ha; apply elem_num; auto).
  apply closed_elem. unfold tde_body, a_doc. destruct pos, fast; cbn [app].
  - apply closed_arr. repeat (constructor; [try (apply elem_num; auto)|]); [|constructor]. apply closed_elem. exact C.
  - apply closed_obj. repeat (constructor; [apply (mem_lit (name _)); [pl|try (apply elem_num; auto)]|]); [|constructor]. apply closed_elem. exact C.
  - apply closed_arr. repeat (constructor; [try (apply elem_num; auto)|]). constructor.
  - apply closed_obj. repeat (constructor; [apply (mem_lit (name _)); [pl|try (apply elem_num; auto)]|]). constructor.
Qed.
Lemma tde_json moves pos fast es : Forall (fun e => an_int (fst (fst e)) /\ an_int (snd (fst e)) /\ Forall an_int (snd e) /\ (pos = true -> snd (fst e) = bytes (snd e)) /\ 20 * snd (fst e) + 100 <= 65536) es -> (forall n, moves n = false) \/ tde_sum es + 3 <= 65536 ->
  exists x, frb_tde_to_json moves pos fast es = Some x /\ json x (JArr (map (a_doc pos fast) es)).
Proof.
  intros H M. unfold frb_tde_to_json, start. fold (bk [] 65536). rewrite put_ok by (rewrite len_cons, !len_nil; lia). cbn [obind app]. destruct (tde_loop_ok moves pos fast es [91] 65536) as (c' & E & L).
  - lia.
  - rewrite len_cons, len_nil. lia.
  - eapply Forall_impl; [|exact H]. intros a (_ & (X & _) & _ & Y & W). auto.
  - rewrite len_cons, len_nil. destruct M; [left; auto|right; lia].
  - rewrite E. cbn [obind]. rewrite flat_map_map in *. eexists. split; [apply finish_ok; auto|].
    + apply Forall_map. eapply Forall_impl; [|exact H]. intros a ((X & _) & (Y & _) & W & _). apply tde_body_nz; auto. eapply Forall_impl; [|exact W]. intros p (P & _). exact P.
    + unfold json. match goal with |- reads ?x _ _ => rewrite <- (app_nil_r x) end. apply closed_arr, F2_map. eapply Forall_impl; [|exact H]. intros e (X & Y & W & _). apply tde_elem; auto.
Qed.
