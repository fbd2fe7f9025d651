(* The query that the parser builds asks for what the string says. *)
From Verif Require Import Util Strcmp Token_Model Query_Model Expand_Model Expand_Spec Expand_Proofs Range_Model Range_Spec Look_Spec LookKept_Proofs QpLex_Model QpAct_Model Qp_Spec QpAst_Spec Ask_Spec.
Open Scope Z_scope.
Ltac splits := repeat match goal with |- _ /\ _ => split end.
Notation occur := Query_Model.occur.

Section PLACES.
  (* ---------- groups *)
  Definition gsnoc (g : list (Z * list (list Z))) (x : Z * list Z) : list (Z * list (list Z)) :=
    match rev g with [] => [(fst x, [snd x])] | (p, ws) :: r => if p =? fst x then rev r ++ [(p, ws ++ [snd x])] else g ++ [(fst x, [snd x])] end.
  Lemma gsnoc_cons a g x : g <> [] -> gsnoc (a :: g) x = a :: gsnoc g x.
  Proof.
    intros N. unfold gsnoc. cbn [rev]. destruct (rev g) as [|(p, ws) r] eqn:E; [apply (f_equal (@rev _)) in E; rewrite rev_involutive in E; destruct (N E)|]. cbn [app]. destruct (p =? fst x); [rewrite rev_app_distr; reflexivity|reflexivity].
  Qed.
  Lemma group_nil l : group l = [] -> l = [].
  Proof. destruct l as [|(p, w) r]; [reflexivity|]. cbn [group]. destruct (group r) as [|(p', ws) g]; [discriminate|]. destruct (p =? p'); discriminate. Qed.
  Lemma group_snoc : forall l x, group (l ++ [x]) = gsnoc (group l) x.
  Proof.
    induction l as [|(p, w) l IH]; intros x; [destruct x; reflexivity|]. cbn [app group]. rewrite IH. destruct (group l) as [|(p', ws) g] eqn:Eg.
    - apply group_nil in Eg. subst l. unfold gsnoc. cbn [rev app]. destruct x as (px, wx). cbn [fst snd]. destruct (p =? px) eqn:E; [|reflexivity]. apply Z.eqb_eq in E. subst px. reflexivity.
    - destruct g as [|b g].
      + unfold gsnoc at 1. cbn [rev app fst snd]. destruct (p' =? fst x) eqn:E1.
        * cbn [app]. destruct (p =? p') eqn:E2; [apply Z.eqb_eq in E2; subst p'; unfold gsnoc; cbn [rev app]; rewrite E1; reflexivity|]. rewrite gsnoc_cons by discriminate. unfold gsnoc. cbn [rev app]. rewrite E1. reflexivity.
        * cbn [app]. destruct (p =? p') eqn:E2; [apply Z.eqb_eq in E2; subst p'; unfold gsnoc; cbn [rev app]; rewrite E1; reflexivity|]. rewrite gsnoc_cons by discriminate. unfold gsnoc. cbn [rev app]. rewrite E1. reflexivity.
      + rewrite gsnoc_cons by discriminate. destruct (p =? p'); [rewrite (gsnoc_cons (p, w :: ws) (b :: g)) by discriminate; reflexivity|]. rewrite (gsnoc_cons (p, [w]) ((p', ws) :: b :: g)), (gsnoc_cons (p', ws) (b :: g)) by discriminate. reflexivity.
  Qed.
  Lemma group_last : forall l p w, exists r ws, group (l ++ [(p, w)]) = r ++ [(p, ws)].
  Proof. intros l p w. rewrite group_snoc. unfold gsnoc. destruct (rev (group l)) as [|(q, ws) r]; [exists [], [w]; reflexivity|]. cbn [fst snd]. destruct (q =? p) eqn:E; [apply Z.eqb_eq in E; subst q; eexists; eexists; reflexivity|exists (group l), [w]; reflexivity]. Qed.
  (* the phrase so far and the words so far *)
  Definition lastp (l : list (Z * list Z)) : Z := fst (last l (0, [])).
  Lemma lastp_snoc l p w : lastp (l ++ [(p, w)]) = p.
  Proof. unfold lastp. rewrite last_last. reflexivity. Qed.
  Lemma snoc_dec {A} (l : list A) : l = [] \/ exists r x, l = r ++ [x].
  Proof. destruct l as [|a l]; [auto|right]. destruct (exists_last (l := a :: l)) as (r & x & E); [discriminate|eauto]. Qed.
  Lemma add_term_group l t inc : (l = [] \/ inc <> 0) -> phq_add_term (group l) t inc = group (l ++ [(match l with [] => 0 | _ => lastp l + inc end, t)]).
  Proof.
    intros H. unfold phq_add_term. destruct (snoc_dec l) as [->|(r & (p, w) & ->)]; [reflexivity|]. rewrite group_snoc with (x := (_, t)). destruct (group_last r p w) as (g & ws & E). rewrite E, rev_unit. unfold gsnoc. rewrite rev_unit. cbn [fst snd].
    replace (match r ++ [(p, w)] with [] => 0 | _ => lastp (r ++ [(p, w)]) + inc end) with (p + inc) by (rewrite lastp_snoc; destruct r; reflexivity). destruct H as [H|H]; [destruct r; discriminate|]. rewrite (proj2 (Z.eqb_neq _ _)) by lia. reflexivity.
  Qed.
  Lemma append_group l t : phq_append (group l) t = group (l ++ [(lastp l, t)]).
  Proof.
    unfold phq_append. destruct (snoc_dec l) as [->|(r & (p, w) & ->)]; [reflexivity|]. rewrite group_snoc with (x := (_, t)), lastp_snoc. destruct (group_last r p w) as (g & ws & E). rewrite E, rev_unit. unfold gsnoc. rewrite rev_unit. cbn [fst snd]. rewrite Z.eqb_refl. reflexivity.
  Qed.
  (* ---------- tokens of a word *)
  Definition incs (ts : list token) : Z := Z.of_nat (length (filter (fun t => negb (t_inc t =? 0)) ts)).
  Lemma term_rest_ok : forall ts slop l, l <> [] -> term_rest ts slop (group l) = (slop + incs ts, group (l ++ behind (lastp l) ts)).
  Proof.
    induction ts as [|t ts IH]; intros slop l N; cbn [term_rest behind]; [rewrite app_nil_r; unfold incs; cbn; f_equal; lia|]. unfold incs. cbn [filter]. destruct (t_inc t =? 0) eqn:E; cbn [negb].
    - apply Z.eqb_eq in E. rewrite append_group, IH by (destruct l; discriminate). rewrite lastp_snoc, <- app_assoc, E, Z.add_0_r. reflexivity.
    - apply Z.eqb_neq in E. rewrite add_term_group, IH by (auto; destruct l; discriminate). rewrite lastp_snoc, <- app_assoc. unfold incs. cbn [length app]. destruct l; [congruence|]. f_equal. lia.
  Qed.
  Lemma group_incs : forall ts l, l <> [] -> Z.of_nat (length (group (l ++ behind (lastp l) ts))) = Z.of_nat (length (group l)) + incs ts.
  Proof.
    induction ts as [|t ts IH]; intros l N; cbn [behind]; [rewrite app_nil_r; unfold incs; cbn; lia|]. replace (l ++ (lastp l + t_inc t, t_text t) :: behind (lastp l + t_inc t) ts) with ((l ++ [(lastp l + t_inc t, t_text t)]) ++ behind (lastp (l ++ [(lastp l + t_inc t, t_text t)])) ts) by (rewrite lastp_snoc, <- app_assoc; reflexivity).
    rewrite IH by (destruct l; discriminate). rewrite group_snoc. unfold incs. cbn [filter]. destruct (snoc_dec l) as [->|(r & (p, w) & ->)]; [congruence|]. rewrite lastp_snoc. destruct (group_last r p w) as (g & ws & E). rewrite E. unfold gsnoc. rewrite rev_unit. cbn [fst snd]. destruct (t_inc t =? 0) eqn:E0; cbn [negb].
    - apply Z.eqb_eq in E0. rewrite (proj2 (Z.eqb_eq _ _)) by lia. rewrite rev_involutive, !app_length. reflexivity.
    - apply Z.eqb_neq in E0. rewrite (proj2 (Z.eqb_neq _ _)) by lia. rewrite !app_length. cbn [length]. lia.
  Qed.
  Definition zeros (ts : list token) : Z := Z.of_nat (length (filter (fun t => t_inc t =? 0) ts)).
  Lemma add_tokens_rest : forall ts slop l, l <> [] -> add_tokens ts 0 slop (group l) = (0, slop + zeros ts, group (l ++ behind (lastp l) ts)).
  Proof.
    induction ts as [|t ts IH]; intros slop l N; cbn [add_tokens behind]; [rewrite app_nil_r; unfold zeros; cbn; f_equal; f_equal; lia|]. unfold zeros. cbn [filter]. change (0 =? 0) with true. cbv iota. destruct (t_inc t =? 0) eqn:E.
    - apply Z.eqb_eq in E. rewrite append_group, IH by (destruct l; discriminate). rewrite lastp_snoc, <- app_assoc, E, Z.add_0_r. unfold zeros. cbn [length app]. f_equal. f_equal. lia.
    - apply Z.eqb_neq in E. rewrite add_term_group, IH by (auto; destruct l; discriminate). rewrite lastp_snoc, <- app_assoc. destruct l; [congruence|]. reflexivity.
  Qed.
  Lemma behind_shift : forall ts b p, map (fun o : Z * list Z => (b + fst o, snd o)) (behind p ts) = behind (b + p) ts.
  Proof. induction ts as [|t ts IH]; intros b p; [reflexivity|]. cbn [behind map fst snd]. rewrite IH, Z.add_assoc. reflexivity. Qed.
  Lemma behind_last : forall ts l, l <> [] -> forall k, lastp (l ++ behind k ts) = match ts with [] => lastp l | _ => fst (last (behind k ts) (0, [])) end.
  Proof. intros ts l N k. destruct ts as [|t ts]; [rewrite app_nil_r; reflexivity|]. cbn [behind]. unfold lastp. generalize (behind (k + t_inc t) ts). intros r. f_equal. clear N. induction l as [|a l IH]; [reflexivity|]. cbn [app]. rewrite <- IH. cbn [last]. destruct (l ++ (k + t_inc t, t_text t) :: r) eqn:E; [destruct l; discriminate|reflexivity]. Qed.
End PLACES.
