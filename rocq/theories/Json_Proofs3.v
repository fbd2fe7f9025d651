From Coq Require Import String Ascii.
From Verif Require Import Util Json_Model Json_Spec Json_Proofs Json_Proofs2.
Open Scope Z_scope.

(* hits *)
Definition vals (f : lazy_df) : list (list Z) := map (fun d => quoted (snd d)) (l_data f).
Definition td_val (f : lazy_df) : list Z := if 1 <? len (l_data f) then [91] ++ commas (vals f) ++ [93] else commas (vals f).
Definition td_text (f : lazy_df) : list Z := [34] ++ l_name f ++ [34; 58] ++ td_val f.
Definition td_doc (fs : list lazy_df) : list Z := [123] ++ commas (map td_text fs) ++ [125].
Definition sep (first : bool) : list Z := if first then [] else [44].
Definition tail_of (first : bool) (es : list (list Z)) : list Z := if first then commas es else flat_map (fun x => 44 :: x) es.
Lemma tail_cons first e l : tail_of first (e :: l) = sep first ++ e ++ tail_of false l.
Proof. destruct first; reflexivity. Qed.
Lemma maybe_comma (first : bool) x c : len x + 1 <= c -> (if first then Some (bk x c) else put (bk x c) [44]) = Some (bk (x ++ sep first) c).
Proof. intros H. destruct first; unfold sep; [rewrite app_nil_r; reflexivity|]. apply put_ok. rewrite len_cons, len_nil. lia. Qed.
Definition text_len (ds : list (Z * list Z)) : Z := fold_right (fun d n => 3 * len (snd d) + 3 + n) 0 ds.
Lemma text_len_nn ds : 0 <= text_len ds.
Proof. unfold text_len. induction ds as [|d ds IH]; cbn [fold_right]; [lia|]. pose proof (len_nn (snd d)). lia. Qed.
Lemma values_ok ds : forall first x c, len x + text_len ds <= c -> td_values (bk x c) first ds = Some (bk (x ++ tail_of first (map (fun d => quoted (snd d)) ds)) c) /\ len (tail_of first (map (fun d => quoted (snd d)) ds)) <= text_len ds.
Proof.
  induction ds as [|d ds IH]; intros first x c H; cbn [td_values map].
  - destruct first; cbn [tail_of commas flat_map]; rewrite app_nil_r; split; try reflexivity; rewrite len_nil; cbn [text_len fold_right]; lia.
  - cbn [text_len fold_right] in H |- *. fold (text_len ds) in *. pose proof (quoted_len (snd d)) as Q. pose proof (text_len_nn ds). pose proof (len_nn (snd d)). rewrite maybe_comma by lia. cbn [obind]. unfold json_concat_string. rewrite put_ok by (unfold sep; destruct first; lens; lia). cbn [obind]. rewrite tail_cons.
    destruct (IH false ((x ++ sep first) ++ quoted (snd d)) c) as (E & L); [unfold sep; destruct first; lens; lia|]. rewrite E. split; [rewrite <- !app_assoc; reflexivity|]. unfold sep; destruct first; lens; lia.
Qed.
Definition f_room (f : lazy_df) : Z := len (l_name f) + text_len (l_data f) + 7.
Lemma field_ok f first x c : len x + f_room f <= c -> td_field (bk x c) first f = Some (bk (x ++ sep first ++ td_text f) c) /\ len (sep first ++ td_text f) <= f_room f.
Proof.
  unfold f_room. intros H. pose proof (len_nn (l_name f)). pose proof (text_len_nn (l_data f)). pose proof (len_nn x). unfold td_field. rewrite maybe_comma by lia. cbn [obind]. rewrite put_ok by (unfold sep; destruct first; lens; lia). cbn [obind]. rewrite put_ok by (unfold sep; destruct first; lens; lia). cbn [obind]. rewrite put_ok by (unfold sep; destruct first; lens; lia). cbn [obind]. unfold td_text, td_val. destruct (1 <? len (l_data f)).
  - rewrite put_ok by (unfold sep; destruct first; lens; lia). cbn [obind]. match goal with |- context [td_values (bk ?y c) true _] => destruct (values_ok (l_data f) true y c) as (E & L); [unfold sep; destruct first; lens; lia|] end. rewrite E. cbn [obind]. cbn [tail_of] in *. fold (vals f) in *. rewrite put_ok by (unfold sep; destruct first; lens; lia). split; [repeat (rewrite <- !app_assoc; cbn [app]); reflexivity|]. unfold sep; destruct first; lens; lia.
  - cbn [obind]. match goal with |- context [td_values (bk ?y c) true _] => destruct (values_ok (l_data f) true y c) as (E & L); [unfold sep; destruct first; lens; lia|] end. rewrite E. cbn [obind]. cbn [tail_of] in *. fold (vals f) in *. split; [repeat (rewrite <- !app_assoc; cbn [app]); reflexivity|]. unfold sep; destruct first; lens; lia.
Qed.
Definition fs_room (fs : list lazy_df) : Z := fold_right (fun f n => f_room f + n) 0 fs.
Lemma f_room_nn f : 7 <= f_room f.
Proof. unfold f_room. pose proof (len_nn (l_name f)). pose proof (text_len_nn (l_data f)). lia. Qed.
Lemma fs_room_nn fs : 0 <= fs_room fs.
Proof. unfold fs_room. induction fs as [|f fs IH]; cbn [fold_right]; [lia|]. pose proof (f_room_nn f). lia. Qed.
Lemma fields_ok fs : forall first x c, len x + fs_room fs <= c -> td_fields (bk x c) first fs = Some (bk (x ++ tail_of first (map td_text fs)) c) /\ len (tail_of first (map td_text fs)) <= fs_room fs.
Proof.
  induction fs as [|f fs IH]; intros first x c H; cbn [td_fields map].
  - destruct first; cbn [tail_of commas flat_map]; rewrite app_nil_r; split; try reflexivity; rewrite len_nil; cbn [fs_room fold_right]; lia.
  - cbn [fs_room fold_right] in H |- *. fold (fs_room fs) in *. pose proof (fs_room_nn fs). destruct (field_ok f first x c) as (E & L); [lia|]. rewrite E. cbn [obind]. destruct (IH false (x ++ sep first ++ td_text f) c) as (E' & L'); [rewrite len_app; lia|]. rewrite E', tail_cons. split; [rewrite <- !app_assoc; reflexivity|]. rewrite (app_assoc _ (td_text f)), len_app. lia.
Qed.
Definition stored (f : lazy_df) : Prop := Forall (fun d => fst d = bytes (snd d)) (l_data f).
Lemma need_room f : stored f -> f_room f + 90 <= l_need f.
Proof.
  unfold stored, f_room, l_need, l_len, text_len. destruct f as [n ds]. cbn [l_name l_data]. intros H. assert (K : fold_right (fun d n => 3 * len (snd d) + 3 + n) 0 ds = 3 * fold_right (fun d n => 1 + fst d + n) 0 ds). { induction H as [|d ds E F IH]; cbn [fold_right]; [lia|]. unfold bytes in E. fold (len (snd d)) in E. lia. } pose proof (len_nn ds). lia.
Qed.
Lemma needs_room fs : Forall stored fs -> fs <> [] -> fs_room fs + 90 <= fold_right (fun f n => l_need f + n) 0 fs.
Proof.
  intros H N. assert (K : forall fs, Forall stored fs -> fs_room fs <= fold_right (fun f n => l_need f + n) 0 fs). { clear. induction 1 as [|f fs H F IH]; cbn [fs_room fold_right]; [lia|]. fold (fs_room fs). pose proof (need_room f H). lia. }
  destruct fs as [|f fs]; [congruence|]. inversion H; subst. cbn [fs_room fold_right]. fold (fs_room fs). pose proof (need_room f). pose proof (K fs). intuition lia.
Qed.
Lemma twice_ok fuel : forall n s, 1 <= s -> n <= s + Z.of_nat fuel -> n <= twice fuel n s /\ s <= twice fuel n s.
Proof.
  induction fuel as [|fuel IH]; intros n s H1 H2; cbn [twice]; [lia|]. destruct (Z.ltb_spec s n); [|lia]. destruct (IH n (2 * s)); lia.
Qed.
Lemma doc_ok fs x c : Forall stored fs -> fs <> [] -> 1 <= c -> exists c', frb_lzd_load_to_json (bk x c) fs = Some (bk (x ++ commas (map td_text fs)) c') /\ c <= c' /\ len (x ++ commas (map td_text fs)) + 90 <= c'.
Proof.
  intros H N C. unfold frb_lzd_load_to_json. change (b_text (bk x c)) with x. change (b_capa (bk x c)) with c. change (b_gone (bk x c)) with false. cbv zeta. set (n := fold_right (fun f n => l_need f + n) 0 fs + len x). pose proof (needs_room fs H N) as R. pose proof (fs_room_nn fs). pose proof (len_nn x).
  assert (K : exists c', (if c <? n then mkB x (twice (Z.to_nat n) n c) false else bk x c) = bk x c' /\ c <= c' /\ n <= c'). { destruct (Z.ltb_spec c n) as [L|L]; [|exists c; repeat split; lia]. destruct (twice_ok (Z.to_nat n) n c) as (T1 & T2); try lia. exists (twice (Z.to_nat n) n c). repeat split; auto. }
  destruct K as (c' & E & L1 & L2). rewrite E. exists c'. destruct (fields_ok fs true x c') as (E' & L'); [lia|]. cbn [tail_of] in *. rewrite E'. split; auto. split; auto. rewrite len_app. lia.
Qed.
Lemma docs_ok docs : forall first x c, Forall (fun fs => fs <> [] /\ Forall stored fs) docs -> 1 <= c -> len x + 4 <= c -> exists c', td_docs (bk x c) first docs = Some (bk (x ++ tail_of first (map td_doc docs)) c') /\ len (x ++ tail_of first (map td_doc docs)) + 4 <= c'.
Proof.
  induction docs as [|fs docs IH]; intros first x c F C H; cbn [td_docs map].
  - exists c. destruct first; cbn [tail_of commas flat_map]; rewrite app_nil_r; auto.
  - inversion F as [|? ? (N & S) F']; subst. rewrite maybe_comma by lia. cbn [obind]. rewrite put_ok by (unfold sep; destruct first; lens; lia). cbn [obind]. match goal with |- context [frb_lzd_load_to_json (bk ?y c) fs] => destruct (doc_ok fs y c S N C) as (c1 & E & L1 & L2) end. rewrite E. cbn [obind]. rewrite put_ok by (revert L2; lens; lia). cbn [obind].
    match goal with |- context [td_docs (bk ?y c1) false docs] => destruct (IH false y c1) as (c' & E' & L'); auto; [lia|revert L2; lens; lia|] end. rewrite E'. exists c'. rewrite tail_cons. assert (Q : forall a, x ++ sep first ++ td_doc fs ++ a = ((((x ++ sep first) ++ [123]) ++ commas (map td_text fs)) ++ [125]) ++ a) by (intros a; unfold td_doc; rewrite <- !app_assoc; reflexivity). rewrite Q. auto.
Qed.
Lemma td_text_all docs : Forall (fun fs => fs <> [] /\ Forall stored fs) docs -> frb_td_to_json docs = Some (c_str (([91] ++ commas (map td_doc docs) ++ [93]) ++ [0])).
Proof.
  intros F. unfold frb_td_to_json. fold (bk [] 32768). rewrite put_ok by (rewrite len_cons, !len_nil; lia). cbn [obind app]. destruct (docs_ok docs true [91] 32768) as (c' & E & L); auto; try lia; [rewrite len_cons, len_nil; lia|]. rewrite E. cbn [obind tail_of] in *. rewrite put_ok by (rewrite len_cons, len_nil; lia). cbn [obind]. rewrite put_ok by (rewrite (len_app _ [93]), !len_cons, !len_nil; lia). cbn [obind]. unfold rb_str_new2, bk. cbn [b_text]. rewrite <- !app_assoc. reflexivity.
Qed.
Definition plain_field (f : lazy_df) : Prop := plain (l_name f) /\ l_data f <> [] /\ Forall (fun d => fst d = bytes (snd d) /\ plain (snd d)) (l_data f).
Lemma plain_nz s : plain s -> nz s.
Proof. intros H. eapply Forall_impl; [|exact H]. intros c (L & _). cbv beta in *. lia. Qed.
Lemma field_mem f : plain_field f -> mem (td_text f) (a_field (l_name f) (map snd (l_data f))).
Proof.
  intros (Pn & Ne & Pd). unfold td_text, a_field. exists (td_val f). cbn [fst snd]. split; auto. split; auto. unfold td_val, vals. destruct (l_data f) as [|d1 [|d2 ds]]; [congruence| |].
  - inversion Pd as [|? ? (_ & X) _]; subst. change (1 <? len [d1]) with false. cbn iota. cbn [map commas flat_map]. rewrite app_nil_r. apply closed_elem, closed_str. exact X.
  - replace (1 <? len (d1 :: d2 :: ds)) with true by (symmetry; apply Z.ltb_lt; rewrite !len_cons; pose proof (len_nn ds); lia). cbn iota. apply closed_elem. change (match map snd (d1 :: d2 :: ds) with [v] => JStr v | _ => JArr (map JStr (map snd (d1 :: d2 :: ds))) end) with (JArr (map JStr (map snd (d1 :: d2 :: ds)))). rewrite map_map. apply closed_arr, F2_map. eapply Forall_impl; [|exact Pd]. intros d (_ & X). apply closed_elem, closed_str. exact X.
Qed.
Lemma td_text_nz f : nz (l_name f) -> nz (td_text f).
Proof.
  intros H. assert (V : nz (commas (vals f))) by (apply commas_nz, Forall_map, Forall_forall; intros; apply quoted_nz). unfold td_text, td_val. repeat apply nz_app; auto; try (repeat constructor; discriminate). destruct (1 <? len (l_data f)); auto. repeat apply nz_app; auto; repeat constructor; discriminate.
Qed.
Lemma td_json docs : Forall (fun fs => fs <> [] /\ Forall plain_field fs) docs ->
  exists x, frb_td_to_json docs = Some x /\ json x (JArr (map (fun fs => JObj (map (fun f => a_field (l_name f) (map snd (l_data f))) fs)) docs)).
Proof.
  intros H. rewrite td_text_all. 2: { eapply Forall_impl; [|exact H]. intros fs (N & P). split; auto. eapply Forall_impl; [|exact P]. intros f (_ & _ & Q). unfold stored. eapply Forall_impl; [|exact Q]. intros d (X & _). exact X. }
  assert (Z0 : nz ([91] ++ commas (map td_doc docs) ++ [93])). { repeat apply nz_app; try (repeat constructor; discriminate). apply commas_nz, Forall_map. eapply Forall_impl; [|exact H]. intros fs (_ & P). unfold td_doc. repeat apply nz_app; try (repeat constructor; discriminate). apply commas_nz, Forall_map. eapply Forall_impl; [|exact P]. intros f (Q & _). apply td_text_nz, plain_nz. exact Q. }
  rewrite (c_str_nz _ Z0 []). eexists. split; [reflexivity|]. unfold json. match goal with |- reads ?x _ _ => rewrite <- (app_nil_r x) end. apply closed_arr, F2_map. eapply Forall_impl; [|exact H]. intros fs (_ & P). apply closed_elem. unfold td_doc. apply closed_obj, F2_map. eapply Forall_impl; [|exact P]. intros f Q. apply field_mem. exact Q.
Qed.

(* what goes wrong *)
Lemma te_next_moved moves fast b t f b' : (forall n, moves n = true) -> te_next moves fast b t f = Some b' -> b_capa b' = b_capa b /\ len (b_text b') <= b_capa b' /\ b_text b' = b_text b ++ te_body fast (t, f) ++ [44].
Proof.
  intros M. unfold te_next, json_concat_string, print, te_body. cbn [fst snd].
  assert (G : forall b n x b', put (room moves b n) x = Some b' -> room moves b n = b). { intros a n x a' E. unfold room in *. destruct (b_capa a <? n + len (b_text a) + 100); auto. apply put_some in E. destruct E as (E & _). unfold grow in E. cbn in E. rewrite M, Bool.orb_true_r in E. discriminate. }
  destruct fast; intros E.
  - destruct (put b [91]) as [b1|] eqn:E1; [|discriminate]. cbn [obind] in E. destruct (put (room moves b1 (len t * 3)) (quoted t)) as [b2|] eqn:E2; [|discriminate]. pose proof (G _ _ _ _ E2) as R. rewrite R in E2. cbn [obind] in E. destruct (put b2 [44]) as [b3|] eqn:E3; [|discriminate]. cbn [obind] in E. destruct (put b3 (int_s f ++ [0])); [|discriminate]. cbn [obind] in E. destruct (put b3 (int_s f)) as [b4|] eqn:E4; [|discriminate]. cbn [obind] in E.
    apply put_some in E, E1, E2, E3, E4. destruct E as (_ & -> & L), E1 as (_ & -> & _), E2 as (_ & -> & _), E3 as (_ & -> & _), E4 as (_ & -> & _). unfold bk in *. cbn [b_text b_capa] in *. split; auto. split; auto. rewrite <- !app_assoc. reflexivity.
  - destruct (put (room moves b (len t * 3)) [123]) as [b1|] eqn:E1; [|discriminate]. pose proof (G _ _ _ _ E1) as R. rewrite R in E1. cbn [obind] in E. destruct (put b1 (lit """term"":")) as [b2|] eqn:E2; [|discriminate]. cbn [obind] in E. destruct (put b2 (quoted t)) as [b3|] eqn:E3; [|discriminate]. cbn [obind] in E. destruct (put b3 [44]) as [b4|] eqn:E4; [|discriminate]. cbn [obind] in E. destruct (put b4 (lit """frequency"":")) as [b5|] eqn:E5; [|discriminate]. cbn [obind] in E. destruct (put b5 (int_s f ++ [0])); [|discriminate]. cbn [obind] in E. destruct (put b5 (int_s f)) as [b6|] eqn:E6; [|discriminate]. cbn [obind] in E.
    apply put_some in E, E1, E2, E3, E4, E5, E6. destruct E as (_ & -> & L), E1 as (_ & -> & _), E2 as (_ & -> & _), E3 as (_ & -> & _), E4 as (_ & -> & _), E5 as (_ & -> & _), E6 as (_ & -> & _). unfold bk in *. cbn [b_text b_capa] in *. split; auto. split; auto. rewrite <- !app_assoc. reflexivity.
Qed.
Lemma te_loop_moved moves fast ts : (forall n, moves n = true) -> forall b b', len (b_text b) <= b_capa b -> te_loop moves fast b ts = Some b' -> b_capa b' = b_capa b /\ len (b_text b') <= b_capa b' /\ b_text b' = b_text b ++ flat_map (fun t => te_body fast t ++ [44]) ts.
Proof.
  intros M. induction ts as [|[t f] ts IH]; intros b b' L E; cbn [te_loop flat_map] in *; [apply some_inj in E; subst; rewrite app_nil_r; auto|]. destruct (te_next moves fast b t f) as [b1|] eqn:E1; [|discriminate]. cbn [obind] in E. apply te_next_moved in E1; auto. destruct E1 as (A1 & A2 & A3). apply IH in E; auto. destruct E as (B1 & B2 & B3). split; [congruence|]. split; auto. rewrite B3, A3. rewrite <- !app_assoc. reflexivity.
Qed.
Lemma te_entry_len fast t : 6 <= len (te_body fast t ++ [44]) /\ bytes (c_str (fst t)) + 6 <= len (te_body fast t ++ [44]).
Proof.
  pose proof (int_len (snd t)). unfold te_body, quoted. pose proof (flat_len (c_str (fst t))) as FL. pose proof (len_nn (c_str (fst t))). unfold bytes. fold (len (c_str (fst t))). destruct fast; split; write.
Qed.
Lemma te_moved moves fast ts : (forall n, moves n = true) -> 65536 <= fold_right (fun t n => bytes (c_str (fst t)) + 6 + n) 0 ts -> frb_te_to_json moves fast ts = None.
Proof.
  intros M H. unfold frb_te_to_json, start. fold (bk [] 65536). rewrite put_ok by (rewrite len_cons, !len_nil; lia). cbn [obind app]. destruct (te_loop moves fast (bk [91] 65536) ts) as [b|] eqn:E; auto. apply te_loop_moved in E; auto; [|unfold bk; cbn [b_text b_capa]; rewrite len_cons, len_nil; lia]. destruct E as (E1 & E2 & E3). unfold bk in E1, E3. cbn [b_text b_capa] in *. rewrite E3, E1, len_app, len_cons, len_nil in E2.
  assert (K : fold_right (fun t n => bytes (c_str (fst t)) + 6 + n) 0 ts <= len (flat_map (fun t => te_body fast t ++ [44]) ts)). { clear. induction ts as [|t ts IH]; cbn [fold_right flat_map]; [cbn; lia|]. rewrite (len_app (te_body fast t ++ [44])). pose proof (te_entry_len fast t). lia. } lia.
Qed.
Lemma positions_some ps : forall b b', tde_positions b ps = Some b' -> b_capa b' = b_capa b /\ len (b_text b) + 2 * len ps <= len (b_text b') /\ (len (b_text b) <= b_capa b -> len (b_text b') <= b_capa b).
Proof.
  induction ps as [|p ps IH]; intros b b' E; cbn [tde_positions] in E; [apply some_inj in E; subst; change (len (@nil Z)) with 0; split; [reflexivity|split; [lia|auto]]|]. unfold print in E. destruct (put b ((int_s p ++ [44]) ++ [0])); [|discriminate]. cbn [obind] in E. destruct (put b (int_s p ++ [44])) as [b1|] eqn:E1; [|discriminate]. cbn [obind] in E. apply put_some in E1. destruct E1 as (_ & -> & L). apply IH in E. unfold bk in E. cbn [b_text b_capa] in E. destruct E as (A & B & C). split; auto. pose proof (int_len p). split; [revert B; lens; lia|]. intros _. apply C. exact L.
Qed.
Lemma tde_overflow moves fast d ps : 65536 <= bytes ps -> frb_tde_to_json moves true fast [(d, bytes ps, ps)] = None.
Proof.
  intros H. unfold frb_tde_to_json, start. fold (bk [] 65536). rewrite put_ok by (rewrite len_cons, !len_nil; lia). cbn [obind app tde_loop]. destruct (tde_next moves true fast (bk [91] 65536) d (bytes ps) ps) as [b|] eqn:E; auto. exfalso. unfold tde_next in E.
  assert (R : b_capa (room moves (bk [91] 65536) (bytes ps * 20)) <= 131072). { unfold room, grow, bk. cbn [b_text b_capa b_gone]. destruct (65536 <? bytes ps * 20 + len [91] + 100); cbn [b_capa]; lia. }
  set (b0 := room moves (bk [91] 65536) (bytes ps * 20)) in *. unfold print in E. destruct (put b0 (tde_format true fast d (bytes ps) ++ [0])) as [q0|]; [|discriminate]. cbn [obind] in E. destruct (put b0 (tde_format true fast d (bytes ps))) as [b1|] eqn:E1; [|discriminate]. cbn [obind] in E. apply put_some in E1. destruct E1 as (_ & -> & L). destruct (tde_positions (bk (b_text b0 ++ tde_format true fast d (bytes ps)) (b_capa b0)) ps) as [b3|] eqn:E3; [|discriminate]. apply positions_some in E3. unfold bk in E3. cbn [b_text b_capa] in E3. destruct E3 as (A & B & C). specialize (C L).
  assert (F : 1 <= len (b_text b0 ++ tde_format true fast d (bytes ps))). { unfold tde_format. pose proof (len_nn (b_text b0)). pose proof (int_len d). pose proof (int_len (bytes ps)). destruct fast; write. }
  unfold bytes in H. fold (len ps) in H. lia.
Qed.
Ltac bks := cbv zeta; repeat match goal with |- context [b_capa (bk ?x ?c)] => change (b_capa (bk x c)) with c | |- context [b_text (bk ?x ?c)] => change (b_text (bk x c)) with x | |- context [b_gone (bk ?x ?c)] => change (b_gone (bk x c)) with false end.
Lemma empty_docs n : forall k x, Z.of_nat k + Z.of_nat n >= 10923 -> 1 <= Z.of_nat k <= 10922 -> len x = 3 * Z.of_nat k -> td_docs (bk x 32768) false (repeat [] n) = None.
Proof.
  induction n as [|n IH]; intros k x H K L; [lia|]. cbn [repeat td_docs]. rewrite put_ok by (rewrite len_cons, len_nil; lia). cbn [obind]. rewrite put_ok by (lens; lia). cbn [obind]. unfold frb_lzd_load_to_json. cbn [fold_right]. bks. match goal with |- context [32768 <? ?m] => replace (32768 <? m) with false by (symmetry; apply Z.ltb_ge; lens; lia) end. cbn [td_fields obind].
  destruct (Z.eq_dec (Z.of_nat k) 10922) as [K0|N].
  - unfold put at 1, bk. cbn [b_gone b_text b_capa]. match goal with |- context [?m <=? 32768] => replace (m <=? 32768) with false by (symmetry; apply Z.leb_gt; lens; lia) end. reflexivity.
  - rewrite put_ok by (lens; lia). cbn [obind]. apply (IH (S k)); try lia. lens. lia.
Qed.
Lemma td_empty n : 10923 <= Z.of_nat n -> frb_td_to_json (repeat [] n) = None.
Proof.
  intros H. unfold frb_td_to_json. fold (bk [] 32768). rewrite put_ok by (rewrite len_cons, !len_nil; lia). cbn [obind app]. destruct n as [|n]; [lia|]. cbn [repeat td_docs obind]. rewrite put_ok by (lens; lia). cbn [obind]. unfold frb_lzd_load_to_json. cbn [fold_right]. bks. match goal with |- context [32768 <? ?m] => replace (32768 <? m) with false by reflexivity end. cbn [td_fields obind app]. rewrite put_ok by (lens; lia). cbn [obind app]. rewrite (empty_docs n 1); auto; try lia.
Qed.
Lemma td_compressed n k v : nz v -> 32768 <= bytes v -> 0 <= k -> bytes n + 3 * k + 106 <= 32768 -> frb_td_to_json [[mkLdf n [(k, v)]]] = None.
Proof.
  intros Z0 H K B. unfold frb_td_to_json. fold (bk [] 32768). rewrite put_ok by (rewrite len_cons, !len_nil; lia). cbn [obind app td_docs]. rewrite put_ok by (lens; lia). cbn [obind app]. unfold frb_lzd_load_to_json. cbn [fold_right]. bks. unfold l_need, l_len. cbn [l_name l_data fold_right fst]. unfold bytes in B. fold (len n) in B. match goal with |- context [32768 <? ?m] => replace (32768 <? m) with false by (symmetry; apply Z.ltb_ge; change (len [(k, v)]) with 1; lens; lia) end.
  cbn [td_fields]. unfold td_field. cbn [obind l_name l_data]. pose proof (len_nn n). rewrite put_ok by (lens; lia). cbn [obind]. rewrite put_ok by (lens; lia). cbn [obind]. rewrite put_ok by (lens; lia). cbn [obind]. change (1 <? len [(k, v)]) with false. cbn iota. cbn [obind td_values snd]. unfold json_concat_string. unfold put at 1, bk. cbn [b_gone b_text b_capa].
  assert (C : c_str v = v). { clear - Z0. induction Z0 as [|c v H F IH]; cbn [c_str]; [reflexivity|]. destruct (Z.eqb_spec c 0); [contradiction|]. rewrite IH. reflexivity. }
  pose proof (flat_len (c_str v)) as FL. rewrite C in FL. unfold bytes in H. fold (len v) in H. match goal with |- context [?m <=? 32768] => replace (m <=? 32768) with false by (symmetry; apply Z.leb_gt; unfold quoted; rewrite C; lens; lia) end. reflexivity.
Qed.

(* reading is unambiguous *)
Lemma not_num ds c x (P : Prop) : ds <> [] -> Forall digit ds -> forall r, ds ++ r = c :: x -> ~ digit c -> P.
Proof. intros N F r E H. destruct ds as [|d ds]; [congruence|]. inversion F; subst. cbn in E. inversion E; subst. contradiction. Qed.
Lemma reads_str_inv x v r : reads (34 :: x) v r -> exists s, v = JStr s /\ chars x s r.
Proof. intros H. inversion H; subst; eauto. eapply not_num; eauto. unfold digit. lia. Qed.
Lemma reads_arr_inv x v r : reads (91 :: x) v r -> (x = 93 :: r /\ v = JArr []) \/ exists l, v = JArr l /\ items x l r.
Proof. intros H. inversion H; subst; eauto. eapply not_num; eauto. unfold digit. lia. Qed.
Lemma reads_obj_inv x v r : reads (123 :: x) v r -> (x = 125 :: r /\ v = JObj []) \/ exists l, v = JObj l /\ members x l r.
Proof. intros H. inversion H; subst; eauto. eapply not_num; eauto. unfold digit. lia. Qed.
Lemma reads_other c x v r : reads (c :: x) v r -> c = 34 \/ c = 91 \/ c = 123 \/ digit c.
Proof. intros H. inversion H; subst; auto. destruct ds as [|d ds]; [congruence|]. match goal with E : _ ++ _ = _, F : Forall digit _ |- _ => cbn in E; inversion E; inversion F; subst; auto end. Qed.
Lemma chars_fun x s r : chars x s r -> forall s' r', chars x s' r' -> s = s' /\ r = r'.
Proof.
  induction 1 as [r|c x s r H1 H2 H3 H IH|c e x s r He H IH]; intros s' r' H'; inversion H'; subst; try congruence; auto.
  - edestruct IH; eauto. subst. auto.
  - match goal with A : escape c = Some e, B : escape c = Some ?e' |- _ => rewrite A in B; apply some_inj in B; subst end. edestruct IH; eauto. subst. auto.
Qed.
Lemma num_fun ds : forall ds' r r', Forall digit ds -> Forall digit ds' -> match r with c :: _ => ~ digit c | [] => True end -> match r' with c :: _ => ~ digit c | [] => True end -> ds ++ r = ds' ++ r' -> ds = ds' /\ r = r'.
Proof.
  induction ds as [|d ds IH]; intros [|d' ds'] r r' F F' N N' E; cbn in E; auto; try (subst; match goal with H : Forall digit (_ :: _) |- _ => inversion H; subst; contradiction end). inversion E; subst. inversion F; inversion F'; subst. destruct (IH ds' r r'); auto. subst. auto.
Qed.
Scheme reads_mut := Induction for reads Sort Prop with items_mut := Induction for items Sort Prop with members_mut := Induction for members Sort Prop.
Combined Scheme reads_all from reads_mut, items_mut, members_mut.
Lemma no_value c x v r (P : Prop) : reads (c :: x) v r -> c <> 34 -> c <> 91 -> c <> 123 -> ~ digit c -> P.
Proof. intros H. apply reads_other in H. intuition congruence. Qed.
Lemma items_close x l r : items (93 :: x) l r -> False.
Proof. intros H. inversion H; subst; (eapply no_value; [eassumption| | | |]; unfold digit; lia). Qed.
Lemma members_close x l r : members (125 :: x) l r -> False.
Proof. intros H. inversion H. Qed.
Lemma reads_fun : (forall x v r, reads x v r -> forall v' r', reads x v' r' -> v = v' /\ r = r') /\ (forall x l r, items x l r -> forall l' r', items x l' r' -> l = l' /\ r = r') /\ (forall x l r, members x l r -> forall l' r', members x l' r' -> l = l' /\ r = r').
Proof.
  apply reads_all.
  - intros ds r N F Z0 M v' r' H. inversion H as [ds' r2 N' F' Z' M' E|x s r2 C E|r2 E|x l r2 C E|r2 E|x l r2 C E]; subst; try (eapply not_num; [exact N|exact F|symmetry; eassumption|unfold digit; lia]). destruct (num_fun ds' ds r' r) as (-> & ->); auto.
  - intros x s r C v' r' H. apply reads_str_inv in H. destruct H as (s' & -> & C'). destruct (chars_fun _ _ _ C _ _ C') as (-> & ->). auto.
  - intros r v' r' H. apply reads_arr_inv in H. destruct H as [(E & ->)|(l & -> & H)]; [inversion E; auto|]. exfalso. eapply items_close. exact H.
  - intros x l r I IH v' r' H. apply reads_arr_inv in H. destruct H as [(-> & ->)|(l' & -> & H)]; [exfalso; eapply items_close; exact I|]. destruct (IH _ _ H) as (-> & ->). auto.
  - intros r v' r' H. apply reads_obj_inv in H. destruct H as [(E & ->)|(l & -> & H)]; [inversion E; auto|]. exfalso. eapply members_close. exact H.
  - intros x l r I IH v' r' H. apply reads_obj_inv in H. destruct H as [(-> & ->)|(l' & -> & H)]; [exfalso; eapply members_close; exact I|]. destruct (IH _ _ H) as (-> & ->). auto.
  - intros x v r R IH l' r' H. inversion H as [x1 v1 r1 R1|x1 v1 y1 l1 r1 R1 I1]; subst; destruct (IH _ _ R1) as (-> & E); inversion E; auto.
  - intros x v y l r R IH I IHI l' r' H. inversion H as [x1 v1 r1 R1|x1 v1 y1 l1 r1 R1 I1]; subst; destruct (IH _ _ R1) as (-> & E); inversion E; subst. destruct (IHI _ _ I1) as (-> & ->). auto.
  - intros x k y v r C R IH l' r' H. inversion H as [x1 k1 y1 v1 r1 C1 R1|x1 k1 y1 v1 y2 l1 r1 C1 R1 I1]; subst; destruct (chars_fun _ _ _ C _ _ C1) as (-> & E1); inversion E1; subst; destruct (IH _ _ R1) as (-> & E); inversion E; auto.
  - intros x k y v y' l r C R IH I IHI l' r' H. inversion H as [x1 k1 y1 v1 r1 C1 R1|x1 k1 y1 v1 y2 l1 r1 C1 R1 I1]; subst; destruct (chars_fun _ _ _ C _ _ C1) as (-> & E1); inversion E1; subst; destruct (IH _ _ R1) as (-> & E); inversion E; subst. destruct (IHI _ _ I1) as (-> & ->). auto.
Qed.
Lemma json_one x v v' : json x v -> json x v' -> v = v'.
Proof. intros H H'. apply (proj1 reads_fun _ _ _ H _ _ H'). Qed.
(* two texts that are no values *)
Lemma quote_bad : forall v, ~ json [91; 91; 34; 39; 34; 39; 34; 44; 49; 93; 93] v.
Proof.
  intros v H. apply reads_arr_inv in H. destruct H as [(E & _)|(l & _ & H)]; [discriminate|].
  assert (K : forall w r, ~ reads [91; 34; 39; 34; 39; 34; 44; 49; 93; 93] w r). { intros w r K. apply reads_arr_inv in K. destruct K as [(E & _)|(l' & _ & K)]; [discriminate|].
    assert (J : forall w' r', reads [34; 39; 34; 39; 34; 44; 49; 93; 93] w' r' -> r' = [39; 34; 44; 49; 93; 93]). { intros w' r' J. apply reads_str_inv in J. destruct J as (s & _ & J). assert (J2 : chars [39; 34; 39; 34; 44; 49; 93; 93] [39] [39; 34; 44; 49; 93; 93]) by (constructor; [lia|discriminate|discriminate|constructor]). destruct (chars_fun _ _ _ J2 _ _ J) as (_ & <-). reflexivity. }
    inversion K as [x1 v1 r1 R1|x1 v1 y1 l1 r1 R1 I1]; subst; apply J in R1; discriminate. }
  inversion H as [x1 v1 r1 R1|x1 v1 y1 l1 r1 R1 I1]; subst; eapply K; eauto.
Qed.
Lemma none_bad : forall v, ~ json [91; 123; 34; 102; 34; 58; 125; 93] v.
Proof.
  intros v H. apply reads_arr_inv in H. destruct H as [(E & _)|(l & _ & H)]; [discriminate|].
  assert (K : forall w r, ~ reads [123; 34; 102; 34; 58; 125; 93] w r). { intros w r K. apply reads_obj_inv in K. destruct K as [(E & _)|(l' & _ & K)]; [discriminate|].
    assert (J2 : chars [102; 34; 58; 125; 93] [102] [58; 125; 93]) by (constructor; [lia|discriminate|discriminate|constructor]). inversion K as [x1 k1 y1 v1 r1 C1 R1|x1 k1 y1 v1 y2 l1 r1 C1 R1 I1]; subst; destruct (chars_fun _ _ _ J2 _ _ C1) as (_ & E1); inversion E1; subst; (eapply no_value; [exact R1| | | |]; unfold digit; lia). }
  inversion H as [x1 v1 r1 R1|x1 v1 y1 l1 r1 R1 I1]; subst; eapply K; eauto.
Qed.
