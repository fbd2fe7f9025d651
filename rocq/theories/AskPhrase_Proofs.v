(* The places of a phrase. *)
From Verif Require Import Util Strcmp Token_Model QpLex_Model QpAct_Model Qp_Spec QpAst_Spec Ask_Spec Ask_Proofs.
Open Scope Z_scope.

(* ---------- the phrase as written *)
Fixpoint steps (k : Z) (l : list (Z * list (list Z))) : list (Z * list (list Z)) := match l with [] => [] | (n, ws) :: r => (n - k - 1, ws) :: steps n r end.
Definition lastk (k : Z) (l : list (Z * list (list Z))) : Z := match rev l with [] => k | (n, _) :: _ => n end.
Lemma lastk_cons k n ws l : lastk k ((n, ws) :: l) = lastk n l.
Proof. unfold lastk. cbn [rev]. destruct (rev l) as [|(a, b) r]; reflexivity. Qed.
Lemma steps_snoc : forall l k n ws, steps k (l ++ [(n, ws)]) = steps k l ++ [(n - lastk k l - 1, ws)].
Proof. induction l as [|(m, vs) l IH]; intros k n ws; [reflexivity|]. cbn [app steps]. rewrite IH, lastk_cons. reflexivity. Qed.
Lemma marked_snoc : forall l k ws, marked k (l ++ [ws]) = marked k l ++ match ws with [] => [] | _ => [(k + Z.of_nat (length l), ws)] end.
Proof.
  induction l as [|v l IH]; intros k ws; [cbn [app marked length]; rewrite Z.add_0_r; destruct ws; reflexivity|]. cbn [app marked length]. destruct v as [|w v]; rewrite IH; [|rewrite <- app_comm_cons]; replace (k + 1 + Z.of_nat (length l)) with (k + Z.of_nat (S (length l))) by lia; reflexivity.
Qed.
Fixpoint gaps (acc : list (list (list Z))) : Z := match acc with [] :: r => gaps r + 1 | _ => 0 end.
Notation places_of acc := (marked 0 (rev acc)).
Lemma lastk_marked : forall acc, lastk (-1) (places_of acc) = Z.of_nat (length acc) - 1 - gaps acc.
Proof.
  induction acc as [|ws acc IH]; [reflexivity|]. cbn [rev]. rewrite marked_snoc. destruct ws as [|w ws].
  - rewrite app_nil_r, IH. cbn [length gaps]. lia.
  - unfold lastk. rewrite rev_unit, rev_length. cbn [length gaps]. lia.
Qed.
Definition tracks (p : phrase) (acc : list (list (list Z))) : Prop := ph_pos p = steps (-1) (places_of acc) /\ ph_inc p = gaps acc.
Lemma list_cons_eq {A} (a b : A) l m : a :: l = b :: m -> a = b /\ l = m.
Proof. intros E. injection E. auto. Qed.
Lemma put_ok x : forall acc i ws r, rev (steps (-1) (places_of acc)) = (i, ws) :: r -> steps (-1) (places_of (put x acc)) = rev r ++ [(i, ws ++ [x])].
Proof.
  induction acc as [|v acc IH]; intros i ws r E; [discriminate|]. cbn [rev put] in *. rewrite marked_snoc in E. destruct v as [|w v].
  - rewrite app_nil_r in E. cbn [rev]. rewrite marked_snoc, app_nil_r. apply IH. exact E.
  - rewrite steps_snoc, rev_unit in E. apply list_cons_eq in E. destruct E as (E & E3). apply pair_equal_spec in E. destruct E as (E1 & E2). subst ws. cbn [rev]. rewrite marked_snoc. cbn [app]. rewrite steps_snoc, E1. rewrite <- E3, rev_involutive. reflexivity.
Qed.
Lemma put_gaps x : forall acc, gaps (put x acc) = gaps acc.
Proof. induction acc as [|v acc IH]; [reflexivity|]. cbn [put]. destruct v as [|w v]; [cbn [gaps]; rewrite IH; reflexivity|reflexivity]. Qed.
Lemma words_ok : forall es p acc p', tracks p acc -> words_of p es = Some p' -> tracks p' (written acc es).
Proof.
  induction es as [|[x| |x] es IH]; intros p acc p' (T1 & T2) E; cbn [words_of written] in *.
  - apply some_inj in E. subst p'. split; assumption.
  - eapply IH; [|exact E]. split; cbn [ph_add_word ph_pos ph_inc]; [|reflexivity]. cbn [rev]. rewrite marked_snoc, steps_snoc, lastk_marked, rev_length, T1, T2. f_equal. f_equal. f_equal. lia.
  - eapply IH; [|exact E]. split; cbn [ph_add_word ph_pos ph_inc]; [|cbn [gaps]; lia]. cbn [rev]. rewrite marked_snoc, app_nil_r. exact T1.
  - destruct (ph_add_multi_word p x) as [p1|] eqn:E1; [|discriminate]. eapply IH; [|exact E]. unfold ph_add_multi_word in E1. destruct (rev (ph_pos p)) as [|(i, ws) r] eqn:Er; [discriminate|]. apply some_inj in E1. subst p1. rewrite T1 in Er. split; cbn [ph_pos ph_inc]; [symmetry; apply put_ok; exact Er|rewrite put_gaps; exact T2].
Qed.
Lemma places_ok x es p : words_of (ph_first_word x) es = Some p -> ph_pos p = steps (-1) (places x es).
Proof. intros E. apply (words_ok es _ (match x with Some w => [[w]] | None => [] end)) in E; [apply E|]. destruct x; split; reflexivity. Qed.
(* the numbers increase and there are words *)
Fixpoint upward (k : Z) (l : list (Z * list (list Z))) : Prop := match l with [] => True | (n, ws) :: r => k < n /\ ws <> [] /\ upward n r end.
Lemma upward_less : forall l j k, j <= k -> upward k l -> upward j l.
Proof. intros [|(n, ws) l] j k H; cbn [upward]; [auto|]. intros (A & B). split; [lia|exact B]. Qed.
Lemma marked_up : forall l k j, j < k -> upward j (marked k l).
Proof. induction l as [|[|w ws] l IH]; intros k j H; cbn [marked upward]; [exact Logic.I|apply IH; lia|]. split; [lia|]. split; [discriminate|]. apply IH. lia. Qed.

(* ---------- its tokens *)
Section LAY.
  Variable cf : qconf.
  Hypothesis Htok : q_tok cf <> None.
  (* the first token of a text has a place of its own *)
  Hypothesis Hfirst : forall f w t r, tokens_in cf f w = t :: r -> t_inc t <> 0.
  Lemma get_ts_ok f w : get_ts cf f w = Some (tokens_in cf f w).
  Proof. unfold get_ts, tokens_in. destruct (q_tok cf) as [l|]; [reflexivity|congruence]. Qed.
  Lemma heard_firsts f w ws : heard (firsts cf f (w :: ws)) = match tokens_in cf f w with [] => heard (firsts cf f ws) | t :: _ => t_text t :: heard (firsts cf f ws) end.
  Proof. unfold firsts. cbn [map heard flat_map]. destruct (tokens_in cf f w); reflexivity. Qed.
  Lemma alts_added f : forall ws pinc l, l <> [] -> add_alts cf f ws true pinc (group l) = Some (pinc, group (l ++ map (fun t => (lastp l, t)) (heard (firsts cf f ws)))).
  Proof.
    induction ws as [|w ws IH]; intros pinc l N; cbn [add_alts]; [cbn; rewrite app_nil_r; reflexivity|]. rewrite get_ts_ok. cbn [obind]. rewrite heard_firsts. destruct (tokens_in cf f w) as [|t r]; [apply IH; exact N|]. rewrite append_group, IH by (destruct l; discriminate). rewrite lastp_snoc, <- app_assoc. reflexivity.
  Qed.
  Lemma alts_ok f : forall ws pinc l, pinc <> 0 -> add_alts cf f ws false pinc (group l) =
    match heard (firsts cf f ws) with [] => Some (pinc, group l) | ts => Some (0, group (l ++ map (fun t => (match l with [] => 0 | _ => lastp l + pinc end, t)) ts)) end.
  Proof.
    induction ws as [|w ws IH]; intros pinc l N; cbn [add_alts]; [reflexivity|]. rewrite get_ts_ok. cbn [obind]. rewrite heard_firsts. destruct (tokens_in cf f w) as [|t r]; [apply IH; exact N|]. rewrite (proj2 (Z.eqb_neq _ _) N). rewrite add_term_group, alts_added by (auto; destruct l; discriminate). rewrite lastp_snoc, <- app_assoc. reflexivity.
  Qed.
  Definition step_add f (ws : list (list Z)) (pinc slop : Z) ps : option (Z * Z * list (Z * list (list Z))) :=
    match ws with
    | [w] => do ts <- get_ts cf f w; Some (add_tokens ts pinc slop ps)
    | _ => do x <- add_alts cf f ws false pinc ps; Some (fst x, slop, snd x)
    end.
  Lemma step_ok f ws pinc slop l : pinc <> 0 -> step_add f ws pinc slop (group l) =
    match spread cf f ws with
    | [] => Some (pinc, slop, group l)
    | os => Some (0, slop + doubles cf f ws, group (l ++ map (fun o : Z * list Z => (match l with [] => 0 | _ => lastp l + pinc end + fst o, snd o)) os))
    end.
  Proof.
    intros N. set (b := match l with [] => 0 | _ => lastp l + pinc end).
    assert (A : forall ws, (do x <- add_alts cf f ws false pinc (group l); Some (fst x, slop, snd x)) = match map (fun t => (0, t)) (heard (firsts cf f ws)) with [] => Some (pinc, slop, group l) | os => Some (0, slop + 0, group (l ++ map (fun o : Z * list Z => (b + fst o, snd o)) os)) end).
    { intros vs. rewrite alts_ok by exact N. destruct (heard (firsts cf f vs)) as [|t ts]; [reflexivity|]. cbn [obind fst snd map]. fold b. rewrite !Z.add_0_r. f_equal. f_equal. f_equal. f_equal. f_equal. rewrite map_map. apply map_ext. intros a. cbn [fst snd]. rewrite Z.add_0_r. reflexivity. }
    destruct ws as [|w [|w2 ws]]; [exact (A [])| |exact (A (w :: w2 :: ws))]. cbn [step_add spread doubles]. rewrite get_ts_ok. cbn [obind]. destruct (tokens_in cf f w) as [|t ts] eqn:Et; [reflexivity|]. cbn [spots add_tokens map fst snd tl].
    rewrite (proj2 (Z.eqb_neq _ _) (Hfirst f w t ts Et)), (proj2 (Z.eqb_neq _ _) N). rewrite add_term_group, add_tokens_rest by (auto; destruct l; discriminate). rewrite lastp_snoc, <- app_assoc. fold b. rewrite behind_shift, Z.add_0_r. reflexivity.
  Qed.
  Definition lost f (p : Z * list (list Z)) : bool := match spread cf f (snd p) with [] => true | _ => false end.
  Lemma removelast_cons {A} (x : A) r : removelast (x :: r) = match r with [] => [] | _ => x :: removelast r end.
  Proof. reflexivity. Qed.
  Lemma lay_last (l os : list (Z * list Z)) b : os <> [] -> lastp (l ++ map (fun o : Z * list Z => (b + fst o, snd o)) os) = b + fst (last os (0, [])).
  Proof. intros N. destruct (snoc_dec os) as [->|(r & (p, w) & ->)]; [congruence|]. rewrite map_app, app_assoc. cbn [map fst snd]. rewrite lastp_snoc, last_last. reflexivity. Qed.
  Lemma positions_ok f : forall L k pinc slop l, upward k L -> 0 <= pinc -> add_positions cf f (steps k L) pinc slop (group l) =
    Some (slop + (match L with [] => 0 | _ => if pinc =? 0 then 0 else 1 end) + count (lost f) (removelast L) + sum (map (fun p : Z * list (list Z) => doubles cf f (snd p)) L),
          group (l ++ lay cf f (match l with [] => None | _ => Some (lastp l, k - pinc) end) L)).
  Proof.
    induction L as [|(n, ws) L IH]; intros k pinc slop l U HP; cbn [steps add_positions].
    - unfold count, sum. cbn [removelast filter length map fold_right lay]. rewrite app_nil_r. f_equal. f_equal. lia.
    - destruct U as (U1 & U2 & U3). set (slop1 := if pinc =? 0 then slop else slop + 1). replace (pinc + (n - k - 1 + 1)) with (pinc + n - k) by lia.
      transitivity (do y <- step_add f ws (pinc + n - k) slop1 (group l); add_positions cf f (steps n L) (fst (fst y)) (snd (fst y)) (snd y)).
      { unfold step_add. destruct ws as [|w [|w2 ws]]; [congruence| |].
        - destruct (get_ts cf f w) as [ts|]; [|reflexivity]. cbn [obind]. destruct (add_tokens ts (pinc + n - k) slop1 (group l)) as ((a, b), c). reflexivity.
        - destruct (add_alts cf f (w :: w2 :: ws) false (pinc + n - k) (group l)) as [(a, b)|]; reflexivity. }
      rewrite step_ok by lia. cbn [lay map]. rewrite removelast_cons. unfold sum. cbn [fold_right]. fold (sum (map (fun p : Z * list (list Z) => doubles cf f (snd p)) L)).
      assert (ES : slop1 = slop + (if pinc =? 0 then 0 else 1)) by (unfold slop1; destruct (pinc =? 0); lia).
      cbn [snd]. destruct (spread cf f ws) as [|o os] eqn:Es.
      + cbn [obind fst snd]. rewrite IH by (auto; lia). rewrite (proj2 (Z.eqb_neq _ _)) by lia.
        assert (ED : doubles cf f ws = 0). { destruct ws as [|w [|w2 ws]]; [reflexivity| |reflexivity]. cbn [spread doubles] in *. destruct (tokens_in cf f w); [reflexivity|discriminate]. }
        rewrite ED, ES. f_equal. f_equal.
        * destruct L as [|x L]; unfold count; [cbn; lia|]. cbn [filter]. replace (lost f (n, ws)) with true by (unfold lost; cbn [snd]; rewrite Es; reflexivity). cbn [length]. lia.
        * replace (n - (pinc + n - k)) with (k - pinc) by lia. reflexivity.
      + cbn [obind fst snd]. rewrite IH by (auto; lia). rewrite Z.eqb_refl, ES. f_equal. f_equal.
        * destruct L as [|x L]; unfold count; [cbn; lia|]. cbn [filter]. replace (lost f (n, ws)) with false by (unfold lost; cbn [snd]; rewrite Es; reflexivity). lia.
        * rewrite app_assoc. f_equal. assert (EB : match l with [] => 0 | _ => lastp l + (pinc + n - k) end = match match l with [] => None | _ => Some (lastp l, k - pinc) end with None => 0 | Some (p, j) => p + (n - j) end) by (destruct l; lia).
          rewrite EB. set (b := match match l with [] => None | _ => Some (lastp l, k - pinc) end with None => 0 | Some (p, j) => p + (n - j) end). f_equal.
          pose proof (lay_last l (o :: os) b ltac:(discriminate)) as EL. cbn [map] in EL. rewrite EL, Z.sub_0_r. destruct (l ++ (b + fst o, snd o) :: map (fun o0 : Z * list Z => (b + fst o0, snd o0)) os) eqn:E0; [destruct l; discriminate|]. reflexivity.
  Qed.
End LAY.
