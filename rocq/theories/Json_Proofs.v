From Coq Require Import String Ascii.
From Verif Require Import Util Json_Model Json_Spec.
Open Scope Z_scope.

Definition bk (x : list Z) (c : Z) : buf := mkB x c false.
Lemma len_app {A} (x y : list A) : len (x ++ y) = len x + len y.
Proof. unfold len. rewrite app_length. lia. Qed.
Lemma len_cons {A} (a : A) x : len (a :: x) = 1 + len x.
Proof. unfold len. cbn [List.length]. lia. Qed.
Lemma len_nil {A} : len (@nil A) = 0.
Proof. reflexivity. Qed.
Lemma len_nn {A} (x : list A) : 0 <= len x.
Proof. unfold len. lia. Qed.
Lemma put_ok x c y : len x + len y <= c -> put (bk x c) y = Some (bk (x ++ y) c).
Proof. intros H. unfold put, bk. cbn [b_gone b_text b_capa]. destruct (Z.leb_spec (len x + len y) c); [reflexivity|lia]. Qed.
Lemma put_some b y b' : put b y = Some b' -> b_gone b = false /\ b' = bk (b_text b ++ y) (b_capa b) /\ len (b_text b ++ y) <= b_capa b.
Proof. unfold put. destruct (b_gone b); [discriminate|]. rewrite <- len_app. destruct (Z.leb_spec (len (b_text b ++ y)) (b_capa b)); [|discriminate]. intros E. apply some_inj in E. auto. Qed.
Lemma print_ok x c y : len x + len y + 1 <= c -> print (bk x c) y = Some (bk (x ++ y) c).
Proof. intros H. unfold print. rewrite put_ok by (rewrite len_app, len_cons, len_nil; lia). cbn [obind]. apply put_ok. lia. Qed.
Lemma digits_len f : forall n, 1 <= len (digits f n) <= 1 + Z.of_nat f.
Proof. induction f as [|f IH]; intros n; cbn [digits]; [rewrite len_cons, len_nil; lia|]. destruct (n <? 10); [rewrite len_cons, len_nil; lia|]. rewrite len_app, len_cons, len_nil. specialize (IH (n / 10)). lia. Qed.
Lemma int_len n : 1 <= len (int_s n) <= 10.
Proof. exact (digits_len 9 n). Qed.
Lemma c_str_len x : len (c_str x) <= len x.
Proof. induction x as [|c x IH]; cbn [c_str]; [lia|]. destruct (c =? 0); rewrite ?len_cons, ?len_nil; pose proof (len_nn x); lia. Qed.
Lemma flat_len x : len x <= len (flat_map (fun c => if c =? 34 then [39; 34; 39] else [c]) x) <= 3 * len x.
Proof. induction x as [|c x IH]; cbn [flat_map]; [rewrite len_nil; lia|]. rewrite len_app, (len_cons c). destruct (c =? 34); rewrite !len_cons, len_nil; lia. Qed.
Lemma quoted_len t : 2 <= len (quoted t) <= 3 * len t + 2.
Proof. unfold quoted. rewrite !len_app, !len_cons, !len_nil. pose proof (flat_len (c_str t)). pose proof (c_str_len t). pose proof (len_nn (c_str t)). lia. Qed.
Ltac lens := rewrite ?len_app, ?len_cons; try match goal with |- context [len (@nil Z)] => change (len (@nil Z)) with 0 end; rewrite ?len_nil.
Ltac write := lens; repeat match goal with |- context [len (lit ?s)] => let n := eval vm_compute in (len (lit s)) in change (len (lit s)) with n end; try lia.

Definition te_body (fast : bool) (t : list Z * Z) : list Z :=
  if fast then [91] ++ quoted (fst t) ++ [44] ++ int_s (snd t) ++ [93] else [123] ++ lit """term"":" ++ quoted (fst t) ++ [44] ++ lit """frequency"":" ++ int_s (snd t) ++ [125].
Lemma te_body_len fast t : len (te_body fast t) <= 3 * len (fst t) + 40.
Proof. pose proof (quoted_len (fst t)). pose proof (int_len (snd t)). unfold te_body. destruct fast; write. Qed.
Lemma room_ok moves x c n : len x <= c -> 65536 <= c -> 0 <= n -> n + 100 <= 65536 -> moves (2 * c) = false \/ n + len x + 100 <= c -> exists c', room moves (bk x c) n = bk x c' /\ c <= c' /\ n + len x + 100 <= c' /\ (n + len x + 100 <= c -> c' = c).
Proof.
  intros H1 H2 H0 H3 H4. unfold room, grow, bk. cbn [b_gone b_text b_capa]. destruct (Z.ltb_spec c (n + len x + 100)) as [L|L]; [|exists c; repeat split; lia]. exists (2 * c). destruct H4 as [H4|H4]; [|lia]. rewrite H4. cbn [orb]. repeat split; lia.
Qed.
Lemma te_next_ok moves fast x c t f : 65536 <= c -> len x + 2 <= c -> 3 * len t + 100 <= 65536 -> moves (2 * c) = false \/ 3 * len t + len x + 101 <= c ->
  exists c', te_next moves fast (bk x c) t f = Some (bk (x ++ te_body fast (t, f) ++ [44]) c') /\ c <= c' /\ len (x ++ te_body fast (t, f) ++ [44]) + 2 <= c' /\ (3 * len t + len x + 101 <= c -> c' = c).
Proof.
  intros H1 H2 H3 H4. pose proof (quoted_len t) as Q. pose proof (int_len f) as N. pose proof (len_nn x). pose proof (len_nn t). unfold te_next, json_concat_string, te_body. cbn [fst snd]. destruct fast.
  - rewrite put_ok by write. cbn [obind]. destruct (room_ok moves (x ++ [91]) c (len t * 3)) as (c' & E & L1 & L2 & L3); try lia; [write|destruct H4; [left; auto|right; write]|]. rewrite E. revert L2 L3. write. intros L2 L3.
    rewrite put_ok by write. cbn [obind]. rewrite put_ok by write. cbn [obind]. rewrite print_ok by write. cbn [obind]. rewrite put_ok by write. exists c'. rewrite <- !app_assoc. cbn [app]. split; [reflexivity|]. split; auto. split; write; try (intros; apply L3; lia).
  - assert (M : moves (2 * c) = false \/ len t * 3 + len x + 100 <= c) by (destruct H4; [left; auto|right; lia]). destruct (room_ok moves x c (len t * 3)) as (c' & E & L1 & L2 & L3); auto; try lia. rewrite E.
    rewrite put_ok by write. cbn [obind]. rewrite put_ok by write. cbn [obind]. rewrite put_ok by write. cbn [obind]. rewrite put_ok by write. cbn [obind]. rewrite put_ok by write. cbn [obind]. rewrite print_ok by write. cbn [obind]. rewrite put_ok by write.
    exists c'. rewrite <- !app_assoc. split; [reflexivity|]. split; auto. split; write; try (intros; apply L3; lia).
Qed.
Definition te_sum (ts : list (list Z * Z)) : Z := fold_right (fun t n => 3 * bytes (fst t) + 100 + n) 0 ts.
Lemma te_sum_nn ts : 0 <= te_sum ts.
Proof. unfold te_sum. induction ts; cbn [fold_right]; unfold bytes in *; lia. Qed.
Lemma te_loop_ok moves fast ts : forall x c, 65536 <= c -> len x + 2 <= c -> Forall (fun t => 3 * bytes (fst t) + 100 <= 65536) ts -> (forall n, moves n = false) \/ len x + te_sum ts + 2 <= c ->
  exists c', te_loop moves fast (bk x c) ts = Some (bk (x ++ flat_map (fun t => te_body fast t ++ [44]) ts) c') /\ len (x ++ flat_map (fun t => te_body fast t ++ [44]) ts) + 2 <= c'.
Proof.
  induction ts as [|[t f] ts IH]; intros x c H1 H2 H3 H4; cbn [te_loop flat_map]; [exists c; rewrite app_nil_r; auto|]. inversion H3 as [|? ? A B]; subst. cbn [fst] in A. unfold bytes in A. fold (len t) in A. pose proof (te_sum_nn ts) as S0. cbn [te_sum fold_right fst] in H4. unfold bytes at 1 in H4. fold (te_sum ts) in H4. fold (len t) in H4.
  destruct (te_next_ok moves fast x c t f) as (c1 & E & L1 & L2 & L3); auto; [destruct H4; [left; auto|right; lia]|]. rewrite E. cbn [obind]. destruct (IH (x ++ te_body fast (t, f) ++ [44]) c1) as (c' & E' & L'); auto; try lia.
  - destruct H4 as [H4|H4]; [left; auto|right]. rewrite L3 by lia. pose proof (te_body_len fast (t, f)) as Lb. cbn [fst] in Lb. lens. lia.
  - exists c'. rewrite E'. rewrite <- !app_assoc in *. auto.
Qed.

(* texts with commas between them *)
Definition commas (es : list (list Z)) : list Z := match es with [] => [] | e :: l => e ++ flat_map (fun x => 44 :: x) l end.
Lemma commas_shift l : [44] ++ flat_map (fun e => e ++ [44]) l = flat_map (fun x => 44 :: x) l ++ [44].
Proof. induction l as [|e l IH]; cbn [flat_map]; [reflexivity|]. rewrite <- !app_assoc, IH. cbn [app]. rewrite <- ?app_assoc. reflexivity. Qed.
Lemma commas_end es : es <> [] -> flat_map (fun e => e ++ [44]) es = commas es ++ [44].
Proof. destruct es as [|e l]; [congruence|]. intros _. cbn [flat_map commas]. rewrite <- !app_assoc. rewrite commas_shift. reflexivity. Qed.
Lemma flat_map_map {X} (g : X -> list Z) l : flat_map (fun t => g t ++ [44]) l = flat_map (fun e => e ++ [44]) (map g l).
Proof. induction l as [|t l IH]; cbn [flat_map map]; [reflexivity|]. rewrite IH. reflexivity. Qed.
Definition nz (x : list Z) : Prop := Forall (fun c => c <> 0) x.
Lemma c_str_nz x : nz x -> forall y, c_str (x ++ 0 :: y) = x.
Proof. induction 1 as [|c x H F IH]; intros y; cbn [app c_str]; [reflexivity|]. destruct (Z.eqb_spec c 0); [contradiction|]. rewrite IH. reflexivity. Qed.
Lemma c_str_is_nz x : nz (c_str x).
Proof. unfold nz. induction x as [|c x IH]; cbn [c_str]; [constructor|]. destruct (Z.eqb_spec c 0); [constructor|constructor; auto]. Qed.
Lemma nz_app x y : nz x -> nz y -> nz (x ++ y).
Proof. unfold nz. intros. apply Forall_app. auto. Qed.
Lemma quoted_nz t : nz (quoted t).
Proof.
  unfold quoted. apply nz_app; [repeat constructor; discriminate|]. apply nz_app; [|repeat constructor; discriminate]. pose proof (c_str_is_nz t) as H. unfold nz in *. induction H as [|c l H F IH]; cbn [flat_map]; [constructor|]. apply Forall_app. split; auto. destruct (c =? 34); repeat constructor; auto; discriminate.
Qed.
Lemma digits_nz f : forall n, 0 <= n -> nz (digits f n).
Proof. unfold nz. induction f as [|f IH]; intros n H; cbn [digits]; [repeat constructor; lia|]. destruct (n <? 10); [repeat constructor; lia|]. apply Forall_app. split; [apply IH; apply Z.div_pos; lia|]. pose proof (Z.mod_pos_bound n 10). repeat constructor. lia. Qed.
Lemma commas_nz es : Forall nz es -> nz (commas es).
Proof. destruct es as [|e l]; intros H; [constructor|]. inversion H; subst. cbn [commas]. apply nz_app; auto. clear H2 H. induction H3; cbn [flat_map]; [constructor|]. constructor; [discriminate|]. apply nz_app; auto. Qed.
Lemma last_snoc (x : list Z) a d : last (x ++ [a]) d = a.
Proof. apply last_last. Qed.
Lemma finish_ok es c : Forall nz es -> len ([91] ++ flat_map (fun e => e ++ [44]) es) + 2 <= c -> finish (bk ([91] ++ flat_map (fun e => e ++ [44]) es) c) = Some ([91] ++ commas es ++ [93]).
Proof.
  intros Z0 L. pose proof (commas_nz es Z0) as Zc. unfold finish, drop_comma, bk. cbn [b_text b_capa b_gone]. destruct es as [|e l].
  - cbn [flat_map app last commas]. cbn in L. change (91 =? 44) with false. cbn iota. fold (bk [91] c). rewrite put_ok by (rewrite !len_cons, !len_nil; lia). cbn [obind]. rewrite put_ok by (rewrite !len_app, !len_cons, !len_nil; lia). reflexivity.
  - rewrite (commas_end (e :: l)) in * by discriminate. rewrite app_assoc in *. rewrite last_snoc. change (44 =? 44) with true. cbn iota. rewrite removelast_last. fold (bk ([91] ++ commas (e :: l)) c). rewrite len_app in L. change (len [44]) with 1 in L. rewrite put_ok by (change (len [93]) with 1; lia). cbn [obind]. rewrite put_ok by (rewrite len_app; change (len [93]) with 1; change (len [0]) with 1; lia). cbn [obind]. unfold rb_str_new2, bk. cbn [b_text]. rewrite c_str_nz; [rewrite <- app_assoc; reflexivity|]. apply nz_app; [|repeat constructor; discriminate]. apply nz_app; auto. repeat constructor. discriminate.
Qed.
Lemma lit_nz s : (forall c, In c (lit s) -> c <> 0) -> nz (lit s).
Proof. intros H. apply Forall_forall. exact H. Qed.
Lemma te_body_nz fast t : 0 <= snd t -> nz (te_body fast t).
Proof.
  intros H. pose proof (quoted_nz (fst t)). pose proof (digits_nz 9 (snd t) H) as D. fold (int_s (snd t)) in D. unfold te_body. destruct fast; repeat (apply nz_app; auto); repeat constructor; try discriminate.
Qed.
Lemma te_text moves fast ts : Forall (fun t => 3 * bytes (fst t) + 100 <= 65536 /\ 0 <= snd t) ts -> (forall n, moves n = false) \/ te_sum ts + 3 <= 65536 ->
  frb_te_to_json moves fast ts = Some ([91] ++ commas (map (te_body fast) ts) ++ [93]).
Proof.
  intros H HM. unfold frb_te_to_json, start. fold (bk [] 65536). rewrite put_ok by (rewrite len_cons, !len_nil; lia). cbn [obind app]. destruct (te_loop_ok moves fast ts [91] 65536) as (c' & E & L).
  - lia.
  - rewrite len_cons, len_nil. lia.
  - eapply Forall_impl; [|exact H]. intros a (X & _). exact X.
  - rewrite len_cons, len_nil. destruct HM; [left; auto|right; lia].
  - rewrite E. cbn [obind]. rewrite flat_map_map in *. apply finish_ok; auto. apply Forall_map. eapply Forall_impl; [|exact H]. intros a (_ & X). apply te_body_nz. exact X.
Qed.
