(* The string of a query is left alone by cleaning, and what it says means the query. *)
From Coq Require Import List ZArith Bool Arith Lia.
From Verif Require Import Util Text_Model Text_Spec.
From Verif Require Import Token_Model QpLex_Model QpAct_Model QpClean_Model Qp_Model Qp_Spec QpAst_Spec QpMean_Spec QpUse_Spec QpLex_Proofs QpUse_Proofs QpTop_Proofs Round_Spec Round_Proofs.
Import ListNotations.
Open Scope Z_scope.

(* ---------- cleaning *)
(* a string that is copied as it is, outside (false) or inside of quotes (true) *)
Definition neutral (qt : bool) (x : list Z) : Prop := forall out pb br, (pb =? 92) = false ->
  exists pb', (pb' =? 92) = false /\ fold_left clean1 x (mkCl out pb br qt) = mkCl (rev x ++ out) pb' br qt.
Lemma neutral_nil qt : neutral qt []. Proof. intros out pb br P. exists pb. auto. Qed.
Lemma neutral_app qt x y : neutral qt x -> neutral qt y -> neutral qt (x ++ y).
Proof.
  intros X Y out pb br P. destruct (X out pb br P) as (p1 & P1 & E1). destruct (Y (rev x ++ out) p1 br P1) as (p2 & P2 & E2). exists p2. split; [exact P2|].
  rewrite fold_left_app, E1, E2, rev_app_distr, <- app_assoc. reflexivity.
Qed.
Lemma neutral_byte c : memz c [92; 34; 40; 41] = false -> neutral false [c].
Proof.
  intros H out pb br P. exists c. split; [apply (memz_false _ _ H); inl|]. cbn [fold_left]. unfold clean1. cbn [cl_out cl_pb cl_br cl_q andb]. rewrite P, !(memz_false _ _ H) by inl. destruct (c =? 62); reflexivity.
Qed.
Lemma neutral_bytes x : forallb (fun c => negb (memz c [92; 34; 40; 41])) x = true -> neutral false x.
Proof.
  induction x as [|c x IH]; intros H; [apply neutral_nil|]. cbn [forallb] in H. apply andb_true_iff in H. destruct H as [H1 H2]. apply negb_true_iff in H1. change (c :: x) with ([c] ++ x). apply neutral_app; [apply neutral_byte; exact H1|apply IH; exact H2].
Qed.
Lemma neutral_paren x : neutral false x -> neutral false ([40] ++ x ++ [41]).
Proof.
  intros X out pb br P. destruct (X (40 :: out) 40 (S br) eq_refl) as (p1 & P1 & E1). exists 41. split; [reflexivity|].
  rewrite fold_left_app. cbn [fold_left]. assert (E0 : clean1 (mkCl out pb br false) 40 = mkCl (40 :: out) 40 (S br) false) by (unfold clean1; cbn [cl_out cl_pb cl_br cl_q andb]; rewrite P; reflexivity).
  rewrite E0, fold_left_app, E1. cbn [fold_left]. unfold clean1. cbn [cl_out cl_pb cl_br cl_q andb]. rewrite P1. cbn [Z.eqb Pos.eqb]. f_equal.
  rewrite !rev_app_distr. cbn [rev List.app]. rewrite <- app_assoc. reflexivity.
Qed.
Lemma neutral_quote x : neutral true x -> neutral false ([34] ++ x ++ [34]).
Proof.
  intros X out pb br P. destruct (X (34 :: out) 34 br eq_refl) as (p1 & P1 & E1). exists 34. split; [reflexivity|].
  rewrite fold_left_app. cbn [fold_left]. assert (E0 : clean1 (mkCl out pb br false) 34 = mkCl (34 :: out) 34 br true) by (unfold clean1; cbn [cl_out cl_pb cl_br cl_q andb]; rewrite P; reflexivity).
  rewrite E0, fold_left_app, E1. cbn [fold_left]. unfold clean1. cbn [cl_out cl_pb cl_br cl_q andb]. rewrite P1. cbn [Z.eqb Pos.eqb negb]. f_equal.
  rewrite !rev_app_distr. cbn [rev List.app]. rewrite <- app_assoc. reflexivity.
Qed.
Lemma inside_byte c : simple c = true \/ c = 32 \/ c = 124 -> neutral true [c].
Proof.
  intros H out pb br P. exists c. cbn [fold_left]. unfold clean1. cbn [cl_out cl_pb cl_br cl_q andb]. rewrite P. destruct H as [H|[->| ->]].
  - destruct (simple_facts c H) as [A B]. rewrite (memz_false _ _ B 92) by inl. split; [reflexivity|]. rewrite A. cbn [andb]. rewrite !(memz_false _ _ A) by inl. reflexivity.
  - split; reflexivity.
  - split; reflexivity.
Qed.
Lemma inside_word w : forallb simple w = true -> neutral true w.
Proof.
  induction w as [|c x IH]; intros H; [apply neutral_nil|]. cbn [forallb] in H. apply andb_true_iff in H. destruct H as [H1 H2]. change (c :: x) with ([c] ++ x). apply neutral_app; [apply inside_byte; auto|apply IH; exact H2].
Qed.
Lemma inside_gap : neutral true [60; 62; 32].
Proof.
  intros out pb br P. exists 32. split; [reflexivity|]. cbn [fold_left].
  assert (E0 : clean1 (mkCl out pb br true) 60 = mkCl (60 :: 92 :: out) 60 br true) by (unfold clean1; cbn [cl_out cl_pb cl_br cl_q andb]; rewrite P; reflexivity). rewrite E0. reflexivity.
Qed.
Lemma inside_gaps n : neutral true (concat (repeat [60; 62; 32] n)).
Proof. induction n as [|n IH]; [apply neutral_nil|]. cbn [repeat concat]. apply neutral_app; [apply inside_gap|exact IH]. Qed.
Lemma inside_join ws : Forall (fun w => forallb simple w = true) ws -> neutral true (Text_Spec.join [124] ws).
Proof.
  induction 1 as [|w ws H F IH]; [apply neutral_nil|]. destruct ws as [|v ws]; [apply inside_word; exact H|].
  change (Text_Spec.join [124] (w :: v :: ws)) with (w ++ [124] ++ Text_Spec.join [124] (v :: ws)). apply neutral_app; [apply inside_word; exact H|]. apply neutral_app; [apply inside_byte; auto|exact IH].
Qed.
Definition simple_place (p : Z * list (list Z)) : Prop := Forall (fun w => forallb simple w = true) (snd p).
Lemma inside_places prev ps : rising prev ps -> Forall simple_place ps -> neutral true (places prev ps).
Proof.
  revert prev. induction ps as [|[p ts] ps IH]; intros prev R F; [apply neutral_nil|]. inversion F as [|? ? F1 F2]. subst. destruct R as [R1 R2]. cbn [fst] in R1. cbn [places]. destruct (p =? prev) eqn:E; [apply Z.eqb_eq in E; lia|].
  change (32 :: ?x) with ([32] ++ x). apply neutral_app; [apply (neutral_app true [32]); [apply inside_byte; auto|apply inside_gaps]|]. apply neutral_app; [apply inside_join; exact F1|apply IH; [exact R2|exact F2]].
Qed.
Lemma inside_phrase ps : match ps with p :: l => rising (fst p) l | [] => True end -> Forall simple_place ps -> neutral true (Text_Spec.phrase ps).
Proof.
  intros R F. destruct ps as [|[p ts] ps]; [apply neutral_nil|]. unfold Text_Spec.phrase. rewrite (sort_rising (p, ts) ps R). inversion F. subst. apply neutral_app; [apply inside_join; assumption|apply inside_places; assumption].
Qed.
Lemma inner_neutral w : forallb (fun c => inner c || wildc c) w = true -> neutral false w.
Proof.
  intros H. apply neutral_bytes. rewrite forallb_forall in *. intros c I. specialize (H c I). apply negb_true_iff. apply orb_true_iff in H. destruct H as [H|H].
  - destruct (inner_facts c H) as [A B]. unfold memz. cbn [existsb]. rewrite (memz_false _ _ B 92) by inl. rewrite !(memz_false _ _ A) by inl. reflexivity.
  - unfold wildc in H. apply orb_true_iff in H. destruct H as [H|H]; apply Z.eqb_eq in H; subst c; reflexivity.
Qed.
Lemma good_neutral w : good_word w -> neutral false w.
Proof. intros G. destruct (good_bytes w G) as (c & v & _ & _ & I & _). apply inner_neutral. apply inner_or. exact I. Qed.
Lemma pattern_neutral p : pattern p -> neutral false p.
Proof.
  intros [G _]. apply inner_neutral. destruct p as [|c v]; [reflexivity|]. destruct G as [G1 G2]. cbn [forallb]. rewrite G2, andb_true_r. apply orb_true_iff in G1. destruct G1 as [G1|G1]; [rewrite (simple_inner c G1); reflexivity|rewrite G1; apply orb_true_r].
Qed.

Section CLEAN.
  Variable cf : qconf.
  Variable bits : num -> Z.
  Variable df : option (list Z).
  Lemma tail_neutral b : reads_b cf bits b -> neutral false (tail b).
  Proof. destruct b as [x|]; intros R; [|apply neutral_nil]. destruct R as [G _]. cbn [tail]. apply (neutral_app false [94]); [apply neutral_byte; reflexivity|apply good_neutral; exact G]. Qed.
  Lemma named_neutral f : known cf f -> neutral false (named df f).
  Proof. intros [G _]. unfold named. destruct (same df f); [apply neutral_nil|]. apply neutral_app; [apply good_neutral; exact G|apply neutral_byte; reflexivity]. Qed.
  Lemma leaf_neutral q : is_bool q = false -> again cf bits q -> neutral false (spell df q).
  Proof.
    intros NB A. destruct q; cbn [again is_bool] in *; try discriminate; try contradiction; cbn [spell].
    - destruct A as (K & G & _ & R). repeat apply neutral_app; [apply named_neutral; exact K|apply good_neutral; exact G|apply tail_neutral; exact R].
    - destruct A as (K & L & RI & F & SL & R). destruct ps as [|p0 ps]; [cbn in L; lia|]. apply neutral_app; [apply named_neutral; exact K|]. rewrite (app_assoc (Text_Spec.phrase _)), (app_assoc [34]). apply neutral_app; [|apply neutral_app; [|apply tail_neutral; exact R]].
      + apply neutral_quote, inside_phrase; [exact RI|]. revert F. apply Forall_impl. intros p [_ H]. unfold simple_place. revert H. apply Forall_impl. intros w [[_ H] _]. exact H.
      + unfold slop_s. destruct SL as [->|[G _]]; [apply neutral_nil|]. destruct (slop =? 0); [apply neutral_nil|]. apply (neutral_app false [126]); [apply neutral_byte; reflexivity|apply good_neutral; exact G].
    - destruct A as (K & L & F & R). apply neutral_app; [apply named_neutral; exact K|]. rewrite (app_assoc (Text_Spec.join _ _)), (app_assoc [34]). apply neutral_app; [|apply tail_neutral; exact R]. apply neutral_quote, inside_join.
      apply Forall_map. revert F. apply Forall_impl. intros [t o] [[_ H] [_ E]]. cbn [fst snd] in *. subst o. cbn [tail]. rewrite app_nil_r. exact H.
    - destruct A as (K & N & W & P & _ & R). apply neutral_app; [apply named_neutral; exact K|]. rewrite (app_assoc p [42]). apply neutral_app; [apply pattern_neutral; exact P|apply tail_neutral; exact R].
    - destruct A as (K & P & _ & _ & R). repeat apply neutral_app; [apply named_neutral; exact K|apply pattern_neutral; exact P|apply tail_neutral; exact R].
    - destruct sim as [s|]; [|contradiction]. destruct A as (K & G & _ & [RS _] & _ & _ & R). apply neutral_app; [apply named_neutral; exact K|]. apply neutral_app; [apply good_neutral; exact G|]. apply neutral_app; [apply neutral_byte; reflexivity|].
      apply neutral_app; [apply good_neutral; exact RS|apply tail_neutral; exact R].
    - destruct A as (K & BL & BU & NE & _ & R). unfold range_s. apply neutral_app; [|apply tail_neutral; exact R]. apply neutral_app; [apply named_neutral; exact K|]. unfold bound in *.
      destruct (r_lower r) as [x|], (r_upper r) as [y|]; repeat apply neutral_app; try (apply good_neutral; first [exact (proj1 BL)|exact (proj1 BU)]); try (apply neutral_byte; first [destruct (r_incl r); reflexivity|destruct (r_incu r); reflexivity]); apply neutral_bytes; reflexivity.
    - apply neutral_app; [apply neutral_byte; reflexivity|apply tail_neutral; exact (proj2 A)].
  Qed.
  Lemma body_neutral cs : Forall (fun c => neutral false (spell df (snd c))) cs -> neutral false (body df cs).
  Proof.
    intros F. unfold body. assert (G : Forall (neutral false) (map (fun c => sign_of (fst c) ++ as_clause df (snd c)) cs)).
    { apply Forall_map. revert F. apply Forall_impl. intros [o q] H. cbn [fst snd] in *. apply neutral_app; [apply neutral_bytes; destruct o; reflexivity|]. unfold as_clause. destruct (is_bool q); [apply neutral_paren; exact H|exact H]. }
    induction G as [|x l X F2 IH]; [apply neutral_nil|]. destruct l as [|y l]; [exact X|]. change (Text_Spec.join [32] (x :: y :: l)) with (x ++ [32] ++ Text_Spec.join [32] (y :: l)). apply neutral_app; [exact X|]. apply neutral_app; [apply neutral_byte; reflexivity|exact IH].
  Qed.
  Lemma spell_neutral q : again cf bits q -> neutral false (spell df q).
  Proof.
    revert q. apply (query_bool_ind (fun q => again cf bits q -> neutral false (spell df q))).
    - intros cs b IH A. cbn [again] in A. destruct A as (L & A & R). apply again_all in A.
      assert (B : neutral false (body df cs)). { apply body_neutral. rewrite Forall_forall in *. intros c I. exact (IH c I (A c I)). }
      rewrite spell_bool. destruct b as [x|]; [|exact B]. change ([41; 94] ++ number x) with ([41] ++ [94] ++ number x). rewrite (app_assoc (body df cs)), (app_assoc [40]). apply neutral_app; [apply neutral_paren; exact B|]. apply (tail_neutral (Some x)). exact R.
    - intros q NB A. apply leaf_neutral; assumption.
  Qed.
  Lemma parsed_same q : again cf bits q -> parsed cf (spell df q) = spell df q.
  Proof.
    intros A. unfold parsed. destruct (q_clean cf); [|reflexivity]. destruct (spell_neutral q A [] (-1) O eq_refl) as (p & _ & E). unfold clean_str, clean_all. rewrite E. cbn [cl_br cl_q cl_out repeat List.app]. rewrite app_nil_r. apply rev_involutive.
  Qed.
End CLEAN.

(* ---------- the grammar and the sizes *)
Section SHAPE.
  Variable cf : qconf.
  Variable bits : num -> Z.
  Variable df : option (list Z).
  Lemma open_fld f a : open (fld df f a) = open a. Proof. unfold fld. destruct (same df f); reflexivity. Qed.
  Lemma wf_fld f a : wf a -> wf (fld df f a). Proof. unfold fld. destruct (same df f); auto. Qed.
  Lemma leaf_wf q : is_bool q = false -> again cf bits q -> wf (fst (leaf df q)) /\ open (fst (leaf df q)) = false.
  Proof.
    intros NB A. destruct q; cbn [again is_bool] in *; try discriminate; try contradiction; cbn [leaf fst]; (split; [apply wf_fld|rewrite open_fld]) || (split; [exact Logic.I|reflexivity]).
    - exact Logic.I.
    - reflexivity.
    - unfold a_phrase. destruct ps as [|[? [|? ?]] ?]; exact Logic.I.
    - unfold a_phrase. destruct ps as [|[? [|? ?]] ?]; reflexivity.
    - unfold a_phrase. destruct (map fst ts); exact Logic.I.
    - unfold a_phrase. destruct (map fst ts); reflexivity.
    - exact Logic.I.
    - reflexivity.
    - exact Logic.I.
    - reflexivity.
    - exact Logic.I.
    - destruct sim; [reflexivity|contradiction].
    - unfold a_range. destruct (r_lower r), (r_upper r); exact Logic.I.
    - unfold a_range. destruct (r_lower r), (r_upper r); reflexivity.
  Qed.
  Definition shaped (q : query) : Prop := forall o, c_wf (clause df o q) /\ c_open (clause df o q) = false.
  Lemma rest_wf cs : Forall (fun c => shaped (snd c)) cs -> m_wf false (rest df cs).
  Proof.
    induction 1 as [|[o q] cs H F IH]; [exact Logic.I|]. cbn [rest m_wf snd] in *. destruct (H (occ_of o)) as [W O]. split; [intros X; discriminate X|]. split; [exact W|]. rewrite O. exact IH.
  Qed.
  Lemma group_wf cs : Forall (fun c => shaped (snd c)) cs -> wf (group df cs) /\ open (group df cs) = false.
  Proof.
    intros F. destruct cs as [|[o q] cs]; [split; [exact Logic.I|reflexivity]|]. split; [|reflexivity]. inversion F as [|? ? H F']. subst. destruct (H (occ_of o)) as [W O]. cbn [group wf]. cbn [snd] in *. rewrite O. split; [exact W|apply rest_wf; exact F'].
  Qed.
  Lemma clause_shaped q : again cf bits q -> shaped q.
  Proof.
    revert q. apply (query_bool_ind (fun q => again cf bits q -> shaped q)).
    - intros cs b IH A o. cbn [again] in A. destruct A as (L & A & R). apply again_all in A.
      destruct (group_wf cs) as [W O]. { rewrite Forall_forall in *. intros c I. exact (IH c I (A c I)). }
      rewrite clause_bool. destruct b as [x|]; cbn [c_wf c_open wf m_wf open]; [split; [split; [exact W|exact Logic.I]|reflexivity]|split; [exact W|exact O]].
    - intros q NB A o. rewrite clause_leaf by exact NB. destruct (leaf_wf q NB A) as [W O]. cbn [c_wf c_open]. split; [exact W|]. destruct (t_boost _); [reflexivity|exact O].
  Qed.
  Lemma whole_wf q : again cf bits q -> top_wf (whole df q).
  Proof.
    intros A. destruct (is_bool q) eqn:B.
    - destruct q; try discriminate. cbn [again] in A. destruct A as (L & A & R). apply again_all in A.
      assert (F : Forall (fun c => shaped (snd c)) cs) by (revert A; apply Forall_impl; intros c; apply clause_shaped).
      destruct cs as [|[o q] cs]; [cbn in L; lia|]. destruct b as [x|].
      + cbn [whole top_wf c_wf m_wf]. split; [apply (group_wf _ F)|exact Logic.I].
      + cbn [whole top_wf]. inversion F as [|? ? H F']. subst. destruct (H (occ_of o)) as [W O]. cbn [snd] in *. rewrite O. split; [exact W|apply rest_wf; exact F'].
    - destruct (clause_shaped q A Should) as [W O]. destruct q; try discriminate; cbn [whole top_wf m_wf]; (split; [exact W|exact Logic.I]).
  Qed.

  Definition sh (ts : list tok) : Prop := Forall short_tok ts.
  Lemma sh_app x y : sh x -> sh y -> sh (x ++ y). Proof. intros A B. apply Forall_app. split; assumption. Qed.
  Lemma sh_word w : good_word w -> sh [TWord w]. Proof. intros (_ & _ & L). constructor; [exact L|constructor]. Qed.
  Lemma sh_opt k b : short_tok k -> reads_b cf bits b -> sh (t_opt k (t_boost b)).
  Proof. intros K R. destruct b as [x|]; [|constructor]. destruct R as [[_ [_ L]] _]. constructor; [exact K|constructor; [exact L|constructor]]. Qed.
  Lemma sh_fld f a : known cf f -> sh (toks a) -> sh (toks (fld df f a)).
  Proof. intros [(_ & _ & L) _] H. unfold fld. destruct (same df f); [exact H|]. cbn [toks flat_map List.app]. constructor; [exact L|constructor; [exact Logic.I|exact H]]. Qed.
  Lemma sh_alts ws : Forall (fun w => good_word w) ws -> sh (flat_map t_elem (map PAlt ws)).
  Proof. induction 1 as [|w ws (_ & _ & L) F IH]; [constructor|]. cbn [map flat_map t_elem List.app]. constructor; [exact Logic.I|constructor; [exact L|exact IH]]. Qed.
  Lemma sh_gaps n : sh (flat_map t_elem (repeat PGap n)).
  Proof. induction n as [|n IH]; [constructor|]. cbn [repeat flat_map t_elem List.app]. constructor; [exact Logic.I|constructor; [exact Logic.I|exact IH]]. Qed.
  Lemma sh_elems ps : Forall good_place ps -> forall prev, sh (flat_map t_elem (elems prev ps)).
  Proof.
    induction 1 as [|[p ts] ps [N G] F IH]; intros prev; [constructor|]. cbn [elems fst snd] in *. destruct ts as [|w ws]; [congruence|]. inversion G as [|? ? [_ [_ L]] G']. subst. rewrite !flat_map_app. apply sh_app; [apply sh_gaps|].
    apply sh_app; [|apply IH]. cbn [flat_map t_elem List.app]. constructor; [exact L|apply sh_alts; exact G'].
  Qed.
  Lemma sh_phrase ps slop : Forall good_place ps -> good_slop slop -> sh (toks (a_phrase ps slop)).
  Proof.
    intros F SL. destruct ps as [|[p [|w ws]] ps]; [repeat constructor|repeat constructor|]. inversion F as [|? ? [_ G] F']. subst. cbn [snd] in G. inversion G as [|? ? [_ [_ L]] G']. subst. cbn [a_phrase toks t_first List.app].
    constructor; [exact Logic.I|]. constructor; [exact L|]. rewrite flat_map_app. apply sh_app; [apply sh_app; [apply sh_alts; exact G'|apply sh_elems; exact F']|]. constructor; [exact Logic.I|].
    unfold a_slop. destruct SL as [->|[_ [_ SL]]]; [constructor|]. destruct (slop =? 0); [constructor|]. constructor; [exact Logic.I|constructor; [exact SL|constructor]].
  Qed.
  Lemma leaf_sh q : is_bool q = false -> again cf bits q -> sh (toks (fst (leaf df q))) /\ reads_b cf bits (snd (leaf df q)).
  Proof.
    intros NB A. destruct q; cbn [again is_bool] in *; try discriminate; try contradiction; cbn [leaf fst snd].
    - destruct A as (K & G & _ & R). split; [|exact R]. apply sh_fld; [exact K|]. apply sh_word. exact G.
    - destruct A as (K & L & RI & F & SL & R). split; [|exact R]. apply sh_fld; [exact K|]. apply sh_phrase; [exact (places_good cf f ps F)|]. destruct SL as [->|[SL _]]; [left; reflexivity|right; exact SL].
    - destruct A as (K & L & F & R). split; [|exact R]. apply sh_fld; [exact K|]. apply sh_phrase; [|left; reflexivity]. constructor; [|constructor]. split; cbn [snd]; [destruct ts; [cbn in L; lia|discriminate]|]. apply Forall_map. revert F. apply Forall_impl. intros t [[G _] _]. exact G.
    - destruct A as (K & N & W & (_ & _ & P) & _ & R). split; [|exact R]. apply sh_fld; [exact K|]. constructor; [exact P|constructor].
    - destruct A as (K & (_ & _ & P) & _ & _ & R). split; [|exact R]. apply sh_fld; [exact K|]. constructor; [exact P|constructor].
    - destruct sim as [s|]; [|contradiction]. destruct A as (K & (_ & _ & G) & _ & [(_ & _ & RS) _] & _ & _ & R). split; [|exact R]. apply sh_fld; [exact K|]. constructor; [exact G|]. constructor; [exact Logic.I|]. constructor; [exact RS|constructor].
    - destruct A as (K & BL & BU & NE & _ & R). split; [|exact R]. apply sh_fld; [exact K|]. unfold a_range, bound in *. destruct (r_lower r) as [x|], (r_upper r) as [y|]; cbn [toks t_range]; repeat apply Forall_cons; try apply Forall_nil; first [exact (proj2 (proj2 (proj1 BL)))|exact (proj2 (proj2 (proj1 BU)))|destruct (r_incl r), (r_incu r); exact Logic.I].
    - split; [|exact (proj2 A)]. constructor; [|constructor]. cbn. lia.
  Qed.
  Definition brief (q : query) : Prop := forall o, sh (c_toks (clause df o q)).
  Lemma sign_sh o : sh (t_sign o). Proof. destruct o; repeat constructor. Qed.
  Lemma rest_sh cs : Forall (fun c => brief (snd c)) cs -> sh (m_toks (rest df cs)).
  Proof. induction 1 as [|[o q] cs H F IH]; [constructor|]. cbn [rest m_toks t_conn List.app snd] in *. apply sh_app; [apply H|exact IH]. Qed.
  Lemma group_sh cs : Forall (fun c => brief (snd c)) cs -> sh (toks (group df cs)).
  Proof.
    intros F. destruct cs as [|[o q] cs]; [repeat constructor|]. inversion F as [|? ? H F']. subst. cbn [group toks snd] in *. constructor; [exact Logic.I|]. apply sh_app; [apply H|]. apply sh_app; [apply rest_sh; exact F'|repeat constructor].
  Qed.
  Lemma clause_brief q : again cf bits q -> brief q.
  Proof.
    revert q. apply (query_bool_ind (fun q => again cf bits q -> brief q)).
    - intros cs b IH A o. cbn [again] in A. destruct A as (L & A & R). apply again_all in A.
      assert (G : sh (toks (group df cs))). { apply group_sh. rewrite Forall_forall in *. intros c I. exact (IH c I (A c I)). }
      rewrite clause_bool. destruct b as [x|]; cbn [c_toks toks m_toks t_opt t_sign List.app]; rewrite ?app_nil_r; (apply sh_app; [apply sign_sh|]); [|exact G].
      destruct R as [(_ & _ & R) _]. constructor; [exact Logic.I|]. repeat apply sh_app; [exact G| |repeat constructor]. constructor; [exact Logic.I|constructor; [exact R|constructor]].
    - intros q NB A o. rewrite clause_leaf by exact NB. destruct (leaf_sh q NB A) as [S R]. cbn [c_toks]. apply sh_app; [apply sign_sh|]. apply sh_app; [exact S|]. apply sh_opt; [exact Logic.I|exact R].
  Qed.
  Lemma whole_sh q : again cf bits q -> sh (top_toks (whole df q)).
  Proof.
    intros A. destruct (is_bool q) eqn:B.
    - destruct q; try discriminate. cbn [again] in A. destruct A as (L & A & R). apply again_all in A.
      assert (F : Forall (fun c => brief (snd c)) cs) by (revert A; apply Forall_impl; intros c; apply clause_brief).
      destruct cs as [|[o q] cs]; [cbn in L; lia|]. destruct b as [x|].
      + cbn [whole top_toks c_toks t_sign m_toks t_opt]. rewrite app_nil_r. change ([] ++ ?x) with x. apply sh_app; [apply group_sh; exact F|]. destruct R as [(_ & _ & R) _]. constructor; [exact Logic.I|constructor; [exact R|constructor]].
      + cbn [whole top_toks]. inversion F as [|? ? H F']. subst. cbn [snd] in *. apply sh_app; [apply H|apply rest_sh; exact F'].
    - destruct q; try discriminate; cbn [whole top_toks m_toks]; rewrite app_nil_r; apply clause_brief; exact A.
  Qed.
End SHAPE.

(* ---------- the meaning *)
Section MEAN.
  Variable cf : qconf.
  Variable bits : num -> Z.
  Variable df : option (list Z).
  Variable d : list Z.
  Variable cap : nat.
  Hypothesis HD : df = None \/ df = Some d.
  Lemma teqb_eq : forall a b, Text_Model.list_eqb a b = true -> a = b.
  Proof. induction a as [|x a IH]; intros [|y b] H; cbn in H; try discriminate; [reflexivity|]. apply andb_true_iff in H. destruct H as [H1 H2]. apply Z.eqb_eq in H1. subst. f_equal. apply IH. exact H2. Qed.
  Lemma eval_fld f a : known cf f -> eval cf cap [d] (fld df f a) = eval cf cap [f] a.
  Proof.
    intros [_ K]. unfold fld. destruct (same df f) eqn:E.
    - destruct HD as [->| ->]; [discriminate E|]. cbn [same] in E. apply teqb_eq in E. subst f. reflexivity.
    - cbn [eval]. unfold fields_of, add1. cbn [fold_left]. rewrite K. reflexivity.
  Qed.
  Lemma e_term f t : kept cf f t -> eval cf cap [f] (ATerm t) = EOk (Some (q_new (NTerm f t))).
  Proof. intros (k & E & T & _). cbn [eval]. unfold over, flds, one_by_one, get_term_q. rewrite E. cbn [obind]. rewrite T. reflexivity. Qed.
  Lemma low_for f w : low cf f w -> (length w < 254)%nat -> lower_for cf cap f w = Some w.
  Proof.
    intros L S. unfold lower_for. destruct (lowers cf f) eqn:E; [|reflexivity]. unfold lower_str. assert (X : (length w <=? 253)%nat = true) by (apply Nat.leb_le; lia). rewrite X. cbn [orb]. rewrite (L E). reflexivity.
  Qed.
  Lemma not_star {A} (p : list Z) (a b : A) : p <> [42] -> match p with [42] => a | _ => b end = b.
  Proof.
    intros N. destruct p as [|c p]; [reflexivity|]. destruct (Z.eq_dec c 42) as [->|NE]; [destruct p; [congruence|reflexivity]|].
    destruct c as [|c|c]; try reflexivity. do 6 (destruct c as [c|c|]; try reflexivity). congruence.
  Qed.
  Lemma e_wild f p : low cf f p -> (length p < 254)%nat -> p <> [42] ->
    eval cf cap [f] (AWild p) = EOk (Some (if (last p 0 =? 42) && negb (existsb wildc (removelast p)) then q_new (NPrefix f (removelast p) (q_max cf)) else q_new (NWild f p (q_max cf)))).
  Proof.
    intros L S N. cbn [eval]. unfold over, flds, get_wild_q. rewrite (low_for f p L S). f_equal. f_equal. apply not_star. exact N.
  Qed.
  (* phrases *)
  Definition incs (prev : Z) (ps : list (Z * list (list Z))) : list (Z * list (list Z)) :=
    (fix go prev ps := match ps with [] => [] | (p, ts) :: r => (p - prev - 1, ts) :: go p r end) prev ps.
  Lemma alts_of ws : forall l i vs inc, words_of (mkPh (l ++ [(i, vs)]) inc) (map PAlt ws) = Some (mkPh (l ++ [(i, vs ++ ws)]) inc).
  Proof.
    induction ws as [|w ws IH]; intros l i vs inc; [cbn [map words_of]; rewrite app_nil_r; reflexivity|]. cbn [map words_of]. unfold ph_add_multi_word. cbn [ph_pos ph_inc]. rewrite rev_app_distr. cbn [rev List.app]. rewrite rev_involutive, IH, <- app_assoc. reflexivity.
  Qed.
  Lemma words_app p a b : words_of p (a ++ b) = match words_of p a with Some p' => words_of p' b | None => None end.
  Proof. revert p. induction a as [|e a IH]; intros p; [reflexivity|]. cbn [List.app words_of]. destruct e; try apply IH. destruct (ph_add_multi_word p x); [apply IH|reflexivity]. Qed.
  Lemma gaps_of n : forall l inc, words_of (mkPh l inc) (repeat PGap n) = Some (mkPh l (inc + Z.of_nat n)).
  Proof. induction n as [|n IH]; intros l inc; cbn [repeat words_of]; [rewrite Z.add_0_r; reflexivity|]. unfold ph_add_word. cbn [ph_pos ph_inc]. rewrite IH. do 2 f_equal. lia. Qed.
  Lemma elems_of ps : forall prev l, rising prev ps -> Forall (fun p => snd p <> []) ps -> words_of (mkPh l 0) (elems prev ps) = Some (mkPh (l ++ incs prev ps) 0).
  Proof.
    induction ps as [|[p ts] ps IH]; intros prev l R F; [cbn [elems words_of incs]; rewrite app_nil_r; reflexivity|]. inversion F as [|? ? N F']. subst. cbn [snd] in N. destruct R as [R1 R2]. cbn [fst] in R1, R2. destruct ts as [|w ws]; [congruence|].
    cbn [elems]. rewrite words_app, gaps_of, Z.add_0_l. cbn [List.app words_of]. unfold ph_add_word. cbn [ph_pos ph_inc]. rewrite words_app, alts_of, (IH p) by assumption. cbn [incs List.app]. rewrite <- app_assoc. rewrite Z2Nat.id by lia. reflexivity.
  Qed.
  Definition all_kept (f : list Z) (ws : list (list Z)) : Prop := Forall (fun w => kept cf f w) ws.
  Lemma appends f ws : all_kept f ws -> forall pinc l i vs, add_alts cf f ws true pinc (l ++ [(i, vs)]) = Some (pinc, l ++ [(i, vs ++ ws)]).
  Proof.
    induction 1 as [|w ws (t & E & T & _) F IH]; intros pinc l i vs; cbn [add_alts]; [rewrite app_nil_r; reflexivity|]. rewrite E. cbn [obind]. unfold phq_append. rewrite rev_app_distr. cbn [rev List.app]. rewrite rev_involutive, T, IH, <- app_assoc. reflexivity.
  Qed.
  Definition next_pos (ps : list (Z * list (list Z))) (inc : Z) : Z := match rev ps with [] => 0 | (p, _) :: _ => p + inc end.
  Lemma one_place f ws i r slop acc : ws <> [] -> all_kept f ws -> i >= 0 ->
    add_positions cf f ((i, ws) :: r) 0 slop acc = add_positions cf f r 0 slop (acc ++ [(next_pos acc (i + 1), ws)]).
  Proof.
    intros N K I. cbn [add_positions]. change (0 =? 0) with true. cbv iota. rewrite Z.add_0_l. assert (NZ : (i + 1 =? 0) = false) by (apply Z.eqb_neq; lia).
    destruct ws as [|w ws]; [congruence|]. inversion K as [|? ? (t & E & T & NI) K']. subst. destruct ws as [|v ws].
    - rewrite E. cbn [obind add_tokens]. apply Z.eqb_neq in NI. rewrite NI, NZ. unfold phq_add_term, next_pos. reflexivity.
    - cbn [add_alts]. rewrite E. cbn [obind]. rewrite NZ. unfold phq_add_term. change (add_alts cf f (v :: ws) true 0) with (add_alts cf f (v :: ws) true 0). fold (next_pos acc (i + 1)).
      pose proof (appends f (v :: ws) K' 0 acc (next_pos acc (i + 1)) [t_text t]) as AP. cbn [add_alts] in AP. rewrite AP. reflexivity.
  Qed.
  Lemma all_places f ps : forall prev p0 slop acc, rising prev ps -> Forall (fun p => snd p <> [] /\ all_kept f (snd p)) ps -> (forall inc, next_pos acc inc = prev - p0 + inc) ->
    add_positions cf f (incs prev ps) 0 slop acc = Some (slop, acc ++ map (fun p => (fst p - p0, snd p)) ps).
  Proof.
    induction ps as [|[p ts] ps IH]; intros prev p0 slop acc R F NP; [cbn [incs add_positions map]; rewrite app_nil_r; reflexivity|]. inversion F as [|? ? [N K] F']. subst. cbn [fst snd] in *. destruct R as [R1 R2]. cbn [fst] in R1, R2.
    cbn [incs]. rewrite one_place by (try assumption; lia). rewrite NP. fold (incs p ps). rewrite (IH p p0); [|exact R2|exact F'|].
    - cbn [map fst snd]. rewrite <- app_assoc. cbn [List.app]. do 4 f_equal. f_equal. lia.
    - intros inc. unfold next_pos. rewrite rev_app_distr. cbn [rev List.app]. lia.
  Qed.
  Lemma e_phrase_ok f ps slop : (2 <= length ps)%nat -> match ps with p :: l => rising (fst p) l | [] => True end -> Forall (place cf f) ps -> slop = 0 \/ q_scand cf (dec slop) = Some slop ->
    eval cf cap [f] (a_phrase ps slop) = EOk (Some (q_new (NPhrase f slop (map (fun p => (fst p - match ps with p0 :: _ => fst p0 | [] => 0 end, snd p)) ps)))).
  Proof.
    intros L R F SL. assert (F1 : Forall (fun p => snd p <> [] /\ all_kept f (snd p)) ps).
    { revert F. apply Forall_impl. intros p [N K]. split; [exact N|]. revert K. apply Forall_impl. intros w [_ K]. exact K. }
    destruct ps as [|[p ts] ps]; [cbn in L; lia|]. inversion F1 as [|? ? [N K] F1']. subst. cbn [fst snd] in *. destruct ts as [|w ws]; [congruence|]. cbn [a_phrase eval].
    assert (W : words_of (ph_first_word (Some w)) (map PAlt ws ++ elems p ps) = Some (mkPh ((0, w :: ws) :: incs p ps) 0)).
    { rewrite words_app. unfold ph_first_word. pose proof (alts_of ws [] 0 [w] 0) as AO. cbn [List.app] in AO. rewrite AO. rewrite elems_of; [reflexivity|exact R|]. revert F1'. apply Forall_impl. tauto. }
    rewrite W. unfold e_phrase, flds, get_phrase_query. cbn [ph_pos]. destruct ps as [|[p1 ts1] ps]; [cbn in L; lia|].
    assert (SC : match a_slop slop with Some s => q_scand cf s | None => Some 0 end = Some slop). { unfold a_slop. destruct (slop =? 0) eqn:E; [apply Z.eqb_eq in E; subst; reflexivity|]. destruct SL as [->|SL]; [discriminate E|exact SL]. }
    rewrite SC. cbn [incs]. fold (incs p1 ps). change ((p1 - p - 1, ts1) :: incs p1 ps) with (incs p ((p1, ts1) :: ps)).
    rewrite one_place; [|discriminate|exact K|lia]. change (next_pos [] (0 + 1)) with 0. cbn [List.app]. rewrite (all_places f ((p1, ts1) :: ps) p p slop); [|exact R|exact F1'|intros inc; unfold next_pos; cbn [rev List.app]; lia].
    cbn [fst snd map List.app]. rewrite Z.sub_diag. reflexivity.
  Qed.
  Lemma firsts f ws : all_kept f ws -> exists l, first_tokens cf f ws = Some (ws, length ws, l).
  Proof. induction 1 as [|w ws (t & E & T & _) F [l IH]]; [exists []; reflexivity|]. cbn [first_tokens length]. rewrite E, IH. cbn [obind]. rewrite T. eexists. reflexivity. Qed.
  Lemma e_multi_ok f ws : (2 <= length ws)%nat -> Forall (fun w => w <> []) ws -> all_kept f ws -> eval cf cap [f] (a_phrase [(0, ws)] 0) = EOk (Some (q_new (NMulti f ws))).
  Proof.
    intros L NE K. destruct ws as [|w [|v ws]]; try (cbn in L; lia). cbn [a_phrase eval]. rewrite words_app. unfold ph_first_word. pose proof (alts_of (v :: ws) [] 0 [w] 0) as AO. cbn [List.app] in AO. rewrite AO. cbn [elems words_of].
    unfold e_phrase, flds, get_phrase_query. cbn [ph_pos]. destruct (firsts f (w :: v :: ws) K) as [l E]. rewrite E. cbn [length]. do 4 f_equal.
    clear - NE. induction NE as [|x l N F IH]; [reflexivity|]. cbn [List.filter]. destruct x; [congruence|]. cbn [negb]. rewrite IH. reflexivity.
  Qed.
  Lemma e_range_ok r : bound cf (r_field r) (r_lower r) -> bound cf (r_field r) (r_upper r) -> r_lower r <> None \/ r_upper r <> None -> reversed cf (r_lower r) (r_upper r) = false ->
    eval cf cap [r_field r] (a_range r) = EOk (Some (q_new (NRange (q_typed cf) (r_field r) (r_lower r) (r_upper r) (match r_lower r with Some _ => r_incl r | None => false end) (match r_upper r with Some _ => r_incu r | None => false end)))).
  Proof.
    intros BL BU NE RV. unfold a_range, bound in *. destruct (r_lower r) as [x|] eqn:EX, (r_upper r) as [y|] eqn:EY; cbn [eval e_range]; unfold over, flds, get_r_q; cbn [fst snd lower_opt];
      try (match type of BL with _ /\ _ => destruct BL as [[_ [_ BL1]] BL2]; rewrite (low_for _ x BL2 BL1) end); try (match type of BU with _ /\ _ => destruct BU as [[_ [_ BU1]] BU2]; rewrite (low_for _ y BU2 BU1) end); cbn [obind].
    - match goal with |- context [reversed ?a ?b ?c] => replace (reversed a b c) with false by (symmetry; exact RV) end. reflexivity.
    - reflexivity.
    - reflexivity.
    - destruct NE; congruence.
  Qed.
  Lemma leaf_means q : is_bool q = false -> again cf bits q -> e_boost cf (match eval cf cap [d] (fst (leaf df q)) with EOk x => x | _ => None end) (t_boost (snd (leaf df q))) = Some (same_query cf bits q) /\ exists x, eval cf cap [d] (fst (leaf df q)) = EOk x.
  Proof.
    intros NB A.
    assert (B : forall b n, reads_b cf bits b -> e_boost cf (Some (q_new n)) (t_boost b) = Some (with_boost bits b n)).
    { intros b n R. destruct b as [x|]; [|reflexivity]. destruct R as [_ R]. cbn [t_boost e_boost]. unfold set_boost, q_new. rewrite R. reflexivity. }
    assert (G : forall a b n, reads_b cf bits b -> eval cf cap [d] a = EOk (Some (q_new n)) -> e_boost cf (match eval cf cap [d] a with EOk x => x | _ => None end) (t_boost b) = Some (with_boost bits b n) /\ exists x, eval cf cap [d] a = EOk x).
    { intros a b n R E. rewrite E. split; [apply B; exact R|eexists; reflexivity]. }
    destruct q; cbn [again is_bool] in *; try discriminate; try contradiction; cbn [leaf fst snd same_query].
    - destruct A as (K & _ & KE & R). apply G; [exact R|]. rewrite eval_fld by exact K. apply e_term. exact KE.
    - destruct A as (K & L & RI & F & SL & R). apply G; [exact R|]. rewrite eval_fld by exact K. apply e_phrase_ok; try assumption. destruct SL as [SL|[_ SL]]; auto.
    - destruct A as (K & L & F & R). apply G; [exact R|]. rewrite eval_fld by exact K. apply e_multi_ok; [rewrite map_length; exact L| |]; apply Forall_map; revert F; apply Forall_impl.
      + intros [t o] [[[W _] _] _]. cbn [fst] in *. destruct t; [contradiction|discriminate].
      + intros t [_ [KE _]]. exact KE.
    - destruct A as (K & N & W & (_ & _ & LE) & LO & R). apply G; [exact R|]. rewrite eval_fld by exact K. rewrite e_wild; [|exact LO|exact LE|].
      + rewrite last_last, removelast_last, W. reflexivity.
      + destruct p as [|c p]; [congruence|]. destruct p; discriminate.
    - destruct A as (K & (_ & WI & LE) & NP & LO & R). apply G; [exact R|]. rewrite eval_fld by exact K. rewrite e_wild; [|exact LO|exact LE|].
      + destruct (last p 0 =? 42) eqn:E; [|reflexivity]. apply Z.eqb_eq in E. rewrite (NP E). reflexivity.
      + intros ->. specialize (NP eq_refl). discriminate NP.
    - destruct sim as [s|]; [|contradiction]. destruct A as (K & _ & (t' & E & T & _) & [_ RS] & NZ1 & NZ2 & R). apply G; [exact R|]. rewrite eval_fld by exact K. cbn [eval t_boost]. unfold over, flds, one_by_one, get_fuzzy_q. rewrite E. cbn [obind]. rewrite RS, T.
      apply Z.eqb_neq in NZ1, NZ2. rewrite NZ1, NZ2. reflexivity.
    - destruct A as (K & BL & BU & NE & RV & R). apply G; [exact R|]. rewrite eval_fld by exact K. apply e_range_ok; assumption.
    - destruct A as [LO R]. apply G; [exact R|]. cbn [eval]. unfold over, flds, get_wild_q. rewrite (low_for d [42]); [reflexivity|intros _; exact LO|cbn; lia].
  Qed.
  (* clauses *)
  Lemma c_eval_eq fs o a b : c_eval cf cap fs (Cls o a b) = ebind (eval cf cap fs a) (fun x => EOk (get_bool_cls (e_boost cf x b) o)).
  Proof. reflexivity. Qed.
  Lemma eval_group_eq fs c m : eval cf cap fs (AGroup c m) = ebind (c_eval cf cap fs c) (fun x => ebind (m_eval cf cap fs (first_cls x) m) (fun cs => EOk (get_bool_q cs))).
  Proof. reflexivity. Qed.
  Hypothesis HOR : q_or cf = true.
  Definition means (q : query) : Prop := forall o, c_eval cf cap [d] (clause df o q) = EOk (Some (o, same_query cf bits q)).
  Lemma rest_means cs : Forall (fun c => means (snd c)) cs -> forall acc, m_eval cf cap [d] acc (rest df cs) = EOk (acc ++ map (fun c => (occ_of (fst c), same_query cf bits (snd c))) cs).
  Proof.
    induction 1 as [|[o q] cs H F IH]; intros acc; cbn [rest m_eval map]; [rewrite app_nil_r; reflexivity|]. cbn [snd] in H. rewrite H. cbn [ebind e_add]. unfold add_default_cls. rewrite HOR. cbn [add_or_cls]. rewrite IH, <- app_assoc. reflexivity.
  Qed.
  Lemma two_means cs : (2 <= length cs)%nat -> Forall (fun c => means (snd c)) cs ->
    match cs with
    | (o, q) :: l => ebind (c_eval cf cap [d] (clause df (occ_of o) q)) (fun x => ebind (m_eval cf cap [d] (first_cls x) (rest df l)) (fun cs => EOk (get_bool_q cs)))
    | [] => EUb
    end = EOk (Some (bq_new (map (fun c => (occ_of (fst c), same_query cf bits (snd c))) cs))).
  Proof.
    intros L F. destruct cs as [|[o q] cs]; [cbn in L; lia|]. inversion F as [|? ? H F']. subst. cbn [snd] in H. rewrite H. cbn [ebind first_cls]. rewrite (rest_means cs F'). cbn [ebind]. destruct cs as [|[o2 q2] cs]; [cbn in L; lia|].
    cbn [map List.app fst snd get_bool_q]. destruct (occ_of o); reflexivity.
  Qed.
  Lemma group_means cs : (2 <= length cs)%nat -> Forall (fun c => means (snd c)) cs -> eval cf cap [d] (group df cs) = EOk (Some (bq_new (map (fun c => (occ_of (fst c), same_query cf bits (snd c))) cs))).
  Proof. intros L F. pose proof (two_means cs L F) as T. destruct cs as [|[o q] cs]; [cbn in L; lia|]. exact T. Qed.
  Lemma clause_means q : again cf bits q -> means q.
  Proof.
    revert q. apply (query_bool_ind (fun q => again cf bits q -> means q)).
    - intros cs b IH A o. cbn [again] in A. destruct A as (L & A & R). apply again_all in A.
      assert (F : Forall (fun c => means (snd c)) cs). { rewrite Forall_forall in *. intros c I. exact (IH c I (A c I)). }
      pose proof (group_means cs L F) as GM. rewrite clause_bool. generalize dependent (group df cs). intros g GM. destruct b as [x|]; rewrite c_eval_eq; [rewrite eval_group_eq, c_eval_eq|]; rewrite GM; cbn [ebind e_boost get_bool_cls].
      + destruct R as [_ R]. unfold set_boost, bq_new, q_new. rewrite R. reflexivity.
      + reflexivity.
    - intros q NB A o. rewrite clause_leaf by exact NB. destruct (leaf_means q NB A) as [E [x X]]. rewrite X in E. rewrite c_eval_eq, X. cbn [ebind]. rewrite E. reflexivity.
  Qed.
  Lemma whole_means q : again cf bits q -> top_eval cf cap [d] (whole df q) = EOk (Some (same_query cf bits q)).
  Proof.
    intros A. pose proof (clause_means q A) as M. destruct (is_bool q) eqn:B.
    - destruct q; try discriminate. cbn [again] in A. destruct A as (L & A & R). apply again_all in A.
      assert (F : Forall (fun c => means (snd c)) cs) by (revert A; apply Forall_impl; intros c; apply clause_means).
      pose proof (two_means cs L F) as T. destruct cs as [|[o q] cs]; [cbn in L; lia|]. destruct b as [x|]; cbn [whole top_eval].
      + rewrite c_eval_eq, (group_means _ L F). destruct R as [_ R]. cbn [ebind e_boost]. unfold set_boost, bq_new, q_new. rewrite R. reflexivity.
      + exact T.
    - specialize (M Should). destruct q; try discriminate; cbn [whole top_eval]; rewrite M; reflexivity.
  Qed.
End MEAN.

Lemma answer_of cf p s t v : ready cf p -> writes cf s t -> sh (top_toks t) -> fits cf s -> value cf s t = EOk (Some v) -> exists p', answers cf p s (AnsQ v) p'.
Proof.
  intros RE W S FI V. assert (MO : moderate cf s) by (split; [rewrite (proj2 W); exact S|exact FI]). destruct (q_handle cf) eqn:H.
  - exact (lenient_mean cf p _ RE MO H _ _ W V).
  - apply (strict_mean cf p _ RE MO H). exists t, (Some v). auto.
Qed.
Lemma round_trip cf bits df d p q : ready cf p -> q_def cf = [d] -> df = None \/ df = Some d -> q_or cf = true -> again cf bits q -> fits cf (spell df q) ->
  exists p', answers cf p (spell df q) (AnsQ (same_query cf bits q)) p'.
Proof.
  intros RE D HD OR A FI.
  assert (TK : toks_of cf (spell df q) = top_toks (whole df q)). { unfold toks_of. rewrite (parsed_same cf bits df q A). apply (tok_whole cf bits). exact A. }
  apply (answer_of cf p _ (whole df q)); [exact RE|split; [exact (whole_wf cf bits df q A)|exact TK]|exact (whole_sh cf bits df q A)|exact FI|]. unfold value. rewrite D. apply whole_means; assumption.
Qed.

(* ---------- clauses of any number *)
Section CLAUSES.
  Variable cf : qconf.
  Variable bits : num -> Z.
  Variable df : option (list Z).
  Variable d : list Z.
  Hypothesis HD : df = None \/ df = Some d.
  Hypothesis HF : q_def cf = [d].
  Lemma clauses_answer p cs v : ready cf p -> cs <> [] -> Forall (fun c => again cf bits (snd c)) cs -> fits cf (body df cs) ->
    (forall cap, match cs with (o, q) :: l => top_eval cf cap [d] (Some (clause df (occ_of o) q, rest df l)) | [] => EUb end = EOk (Some v)) ->
    exists p', answers cf p (body df cs) (AnsQ v) p'.
  Proof.
    intros RE N A FI V. destruct cs as [|[o q] l]; [congruence|]. apply (answer_of cf p _ (Some (clause df (occ_of o) q, rest df l))); try assumption.
    - split.
      + cbn [top_wf]. inversion A as [|? ? A1 A2]. subst. destruct (clause_shaped cf bits df q A1 (occ_of o)) as [W O]. rewrite O. split; [exact W|]. apply rest_wf. revert A2. apply Forall_impl. intros c. apply clause_shaped.
      + unfold toks_of. assert (NE : neutral false (body df ((o, q) :: l))). { apply body_neutral. revert A. apply Forall_impl. intros c. apply spell_neutral. }
        assert (PS : parsed cf (body df ((o, q) :: l)) = body df ((o, q) :: l)).
        { unfold parsed. destruct (q_clean cf); [|reflexivity]. destruct (NE [] (-1) O eq_refl) as (pb & _ & E). unfold clean_str, clean_all. rewrite E. cbn [cl_br cl_q cl_out repeat List.app]. rewrite app_nil_r. apply rev_involutive. }
        rewrite PS. pose proof (tok_body df (q_kw cf) (o, q) l []) as TB. rewrite app_nil_r in TB. rewrite TB; [cbn [fst snd top_toks]; change (tokens (q_kw cf) []) with (@nil tok); rewrite app_nil_r; reflexivity| |exact Logic.I].
        revert A. apply Forall_impl. intros c. apply says_all.
    - cbn [top_toks]. inversion A as [|? ? A1 A2]. subst. apply sh_app; [exact (clause_brief cf bits df q A1 (occ_of o))|]. apply rest_sh. revert A2. apply Forall_impl. intros c. apply clause_brief.
    - unfold value. rewrite HF. apply V.
  Qed.
  Lemma only_not p q : ready cf p -> q_or cf = true -> again cf bits q -> fits cf (spell df (Bool [(Text_Model.MustNot, q)] None)) ->
    exists p', answers cf p (spell df (Bool [(Text_Model.MustNot, q)] None)) (AnsQ (bq_new [(MustNot, same_query cf bits q); (Must, q_new NAll)])) p'.
  Proof.
    intros RE OR A FI. rewrite spell_bool in *. apply clauses_answer; [exact RE|discriminate|constructor; [exact A|constructor]|exact FI|].
    intros cap. cbn [top_eval rest]. rewrite (clause_means cf bits df d cap HD OR q A). reflexivity.
  Qed.
  Definition unboosted (q : qry) : qnode := match q with Q _ n => n end.
  Lemma only_one p o q b : ready cf p -> q_or cf = true -> again cf bits q -> reads_b cf bits b -> o <> Text_Model.MustNot -> fits cf (spell df (Bool [(o, q)] b)) ->
    exists p', answers cf p (spell df (Bool [(o, q)] b)) (AnsQ (match b with Some x => Q (bits x) (unboosted (same_query cf bits q)) | None => same_query cf bits q end)) p'.
  Proof.
    intros RE OR A R NO FI. assert (M := fun cap => clause_means cf bits df d cap HD OR q A). assert (NE : neutral false (spell df (Bool [(o, q)] b))).
    { assert (NB : neutral false (body df [(o, q)])) by (apply body_neutral; constructor; [exact (spell_neutral cf bits df q A)|constructor]). rewrite spell_bool. destruct b as [x|]; [|exact NB].
      change ([41; 94] ++ number x) with ([41] ++ [94] ++ number x). rewrite (app_assoc (body df _)), (app_assoc [40]). apply neutral_app; [apply neutral_paren; exact NB|]. apply (tail_neutral cf bits (Some x)). exact R. }
    destruct b as [x|].
    - apply (answer_of cf p _ (Some (Cls Should (group df [(o, q)]) (Some (number x)), MNil))); try assumption.
      + split.
        * cbn [top_wf c_wf m_wf]. split; [|exact Logic.I]. apply group_wf. constructor; [exact (clause_shaped cf bits df q A)|constructor].
        * unfold toks_of. assert (PS : parsed cf (spell df (Bool [(o, q)] (Some x))) = spell df (Bool [(o, q)] (Some x))).
          { unfold parsed. destruct (q_clean cf); [|reflexivity]. destruct (NE [] (-1) O eq_refl) as (pb & _ & E). unfold clean_str, clean_all. rewrite E. cbn [cl_br cl_q cl_out repeat List.app]. rewrite app_nil_r. apply rev_involutive. }
          rewrite PS. destruct R as [G _]. rewrite spell_bool. pose proof (tok_group df (q_kw cf) [(o, q)] (94 :: number x)) as TG. cbn [List.app] in *. rewrite TG; [|constructor; [exact (says_all cf bits df (q_kw cf) q A)|constructor]|discriminate].
          pose proof (tok_word (q_kw cf) (number x) [] G Logic.I) as TW. rewrite app_nil_r in TW. rewrite tok_caret, TW. change (tokens (q_kw cf) []) with (@nil tok). cbn [top_toks c_toks t_sign t_opt m_toks List.app]. rewrite app_nil_r. reflexivity.
      + cbn [top_toks c_toks t_sign t_opt m_toks]. rewrite app_nil_r. change ([] ++ ?y) with y. apply sh_app; [apply group_sh; constructor; [exact (clause_brief cf bits df q A)|constructor]|]. destruct R as [(_ & _ & R) _]. constructor; [exact Logic.I|constructor; [exact R|constructor]].
      + unfold value. rewrite HF. cbn [top_eval group rest]. rewrite c_eval_eq, eval_group_eq. cbn [m_eval]. rewrite M. cbn [ebind first_cls]. destruct R as [_ R].
        assert (G : get_bool_q [(occ_of o, same_query cf bits q)] = Some (same_query cf bits q)) by (destruct o; [reflexivity|reflexivity|congruence]). rewrite G. destruct (same_query cf bits q) as [b0 n0]. cbn [ebind e_boost unboosted]. unfold set_boost. rewrite R. reflexivity.
    - rewrite spell_bool in *. apply clauses_answer; [exact RE|discriminate|constructor; [exact A|constructor]|exact FI|].
      intros cap. cbn [top_eval rest m_eval]. rewrite M. cbn [ebind first_cls]. destruct o; [reflexivity|reflexivity|congruence].
  Qed.
  (* a parser whose default is AND *)
  Lemma m_eval_eq cap fs acc k c m : m_eval cf cap fs acc (MCons k c m) = ebind (c_eval cf cap fs c) (fun x => m_eval cf cap fs (e_add cf k acc x) m).
  Proof. reflexivity. Qed.
  Lemma leaf_clause q o cap : is_bool q = false -> again cf bits q -> c_eval cf cap [d] (clause df o q) = EOk (Some (o, same_query cf bits q)).
  Proof. intros NB A. rewrite clause_leaf by exact NB. destruct (leaf_means cf bits df d cap HD q NB A) as [E [x X]]. rewrite X in E. rewrite c_eval_eq, X. cbn [ebind]. rewrite E. reflexivity. Qed.
  Definition and_of (o : occ) : occ := match o with MustNot => MustNot | _ => Must end.
  Lemma must_of o q : must (o, q) = (and_of o, q). Proof. destruct o; reflexivity. Qed.
  Lemma and_clauses p cs : ready cf p -> q_or cf = false -> (2 <= length cs)%nat -> Forall (fun c => is_bool (snd c) = false /\ again cf bits (snd c)) cs -> fits cf (spell df (Bool cs None)) ->
    exists p', answers cf p (spell df (Bool cs None)) (AnsQ (bq_new (map (fun c => (and_of (occ_of (fst c)), same_query cf bits (snd c))) cs))) p'.
  Proof.
    intros RE OR L A FI. rewrite spell_bool in *. apply clauses_answer; [exact RE|destruct cs; [cbn in L; lia|discriminate]|revert A; apply Forall_impl; tauto|exact FI|].
    intros cap. destruct cs as [|[o q] [|[o2 q2] cs]]; try (cbn in L; lia). inversion A as [|? ? [B1 A1] A']. inversion A' as [|? ? [B2 A2] A'']. subst. cbn [snd fst] in *. cbn [top_eval rest]. rewrite (leaf_clause q (occ_of o) cap B1 A1). cbn [ebind first_cls].
    rewrite m_eval_eq, (leaf_clause q2 (occ_of o2) cap B2 A2). cbn [ebind e_add]. unfold add_default_cls. rewrite OR. cbn [add_and_cls]. rewrite !must_of.
    assert (G : forall l x y acc, Forall (fun c => is_bool (snd c) = false /\ again cf bits (snd c)) l -> m_eval cf cap [d] (x :: y :: acc) (rest df l) = EOk (x :: y :: acc ++ map (fun c => (and_of (occ_of (fst c)), same_query cf bits (snd c))) l)).
    { induction l as [|[o' q'] l IH]; intros x y acc F; cbn [rest map]; [cbn [m_eval]; rewrite app_nil_r; reflexivity|]. inversion F as [|? ? [B' F1] F2]. subst. cbn [snd] in *. rewrite m_eval_eq, (leaf_clause q' (occ_of o') cap B' F1). cbn [ebind e_add]. unfold add_default_cls. rewrite OR. cbn [add_and_cls].
      rewrite must_of. cbn [List.app]. rewrite IH by exact F2. rewrite <- app_assoc. reflexivity. }
    rewrite (G cs _ _ [] A''). cbn [ebind List.app map fst snd]. destruct (and_of (occ_of o)); reflexivity.
  Qed.
  (* a fuzzy query without similarity takes the word behind it *)
  Lemma fuzzy_eats p f t w : ready cf p -> q_or cf = true -> known cf f -> good_word t -> kept cf f t -> good_word w -> df = Some d -> q_scanf cf w = None ->
    fits cf (spell df (Bool [(Text_Model.Should, Fuzzy f t None None); (Text_Model.Should, Term d w None)] None)) ->
    exists p', answers cf p (spell df (Bool [(Text_Model.Should, Fuzzy f t None None); (Text_Model.Should, Term d w None)] None)) (AnsQ (same_query cf bits (Fuzzy f t None None))) p'.
  Proof.
    intros RE OR K G KE GW DF SC FI. pose proof K as [KG _].
    assert (ES : spell df (Bool [(Text_Model.Should, Fuzzy f t None None); (Text_Model.Should, Term d w None)] None) = named df f ++ t ++ [126; 32] ++ w).
    { rewrite spell_bool. unfold body, as_clause. cbn [map fst snd is_bool sign_of spell tail Text_Spec.join List.app]. rewrite !app_nil_r. unfold named at 2. assert (SD : same df d = true). { rewrite DF. cbn [same]. clear. induction d as [|c l IH]; [reflexivity|]. cbn. rewrite Z.eqb_refl. exact IH. }
      rewrite SD. rewrite <- !app_assoc. reflexivity. }
    rewrite ES in *. set (T := Some (Cls Should (fld df f (AFuzzy t (Some w))) None, MNil) : top).
    assert (NE : neutral false (named df f ++ t ++ [126; 32] ++ w)). { repeat apply neutral_app; [exact (named_neutral cf df f K)|apply good_neutral; exact G|apply neutral_bytes; reflexivity|apply good_neutral; exact GW]. }
    assert (PS : parsed cf (named df f ++ t ++ [126; 32] ++ w) = named df f ++ t ++ [126; 32] ++ w).
    { unfold parsed. destruct (q_clean cf); [|reflexivity]. destruct (NE [] (-1) O eq_refl) as (pb & _ & E). unfold clean_str, clean_all. rewrite E. cbn [cl_br cl_q cl_out repeat List.app]. rewrite app_nil_r. apply rev_involutive. }
    apply (answer_of cf p _ T); try assumption.
    - split.
      + cbn [top_wf T c_wf m_wf]. split; [|exact Logic.I]. apply wf_fld. exact Logic.I.
      + unfold toks_of. rewrite PS. rewrite (tok_named cf df (q_kw cf) f (AFuzzy t (Some w)) (t ++ [126; 32] ++ w) []).
        * cbn [top_toks T c_toks t_sign t_opt m_toks List.app]. rewrite !app_nil_r. reflexivity.
        * exact K.
        * apply good_begins; [exact G|reflexivity].
        * rewrite tok_word; [|exact G|left; reflexivity]. cbn [List.app]. rewrite tok_tilde, tok_space. pose proof (tok_word (q_kw cf) w [] GW Logic.I) as TW. rewrite app_nil_r in TW. rewrite TW. reflexivity.
    - cbn [top_toks T c_toks t_sign t_opt m_toks List.app]. rewrite !app_nil_r. apply (sh_fld cf); [exact K|]. destruct G as (_ & _ & G), GW as (_ & _ & GW). constructor; [exact G|]. constructor; [exact Logic.I|]. constructor; [exact GW|constructor].
    - unfold value. rewrite HF. unfold T. cbn [top_eval m_eval]. rewrite c_eval_eq, (eval_fld cf df d _ HD) by exact K. destruct KE as (k & E & TT & _). cbn [eval]. unfold over, flds, one_by_one, get_fuzzy_q. rewrite E. cbn [obind]. rewrite SC, TT. reflexivity.
  Qed.
  (* any word of a field is read as every document *)
  Lemma star_all p f : ready cf p -> known cf f -> q_lower cf [42] = [42] -> fits cf (spell df (Wild f [42] None)) ->
    exists p', answers cf p (spell df (Wild f [42] None)) (AnsQ (q_new NAll)) p'.
  Proof.
    intros RE K LO FI. pose proof K as [KG _]. assert (ES : spell df (Wild f [42] None) = named df f ++ [42]) by (cbn [spell tail]; rewrite app_nil_r; reflexivity). rewrite ES in *.
    assert (PT : pattern [42]) by (split; [split; reflexivity|split; [reflexivity|cbn; lia]]).
    assert (NE : neutral false (named df f ++ [42])) by (apply neutral_app; [exact (named_neutral cf df f K)|apply pattern_neutral; exact PT]).
    assert (PS : parsed cf (named df f ++ [42]) = named df f ++ [42]).
    { unfold parsed. destruct (q_clean cf); [|reflexivity]. destruct (NE [] (-1) O eq_refl) as (pb & _ & E). unfold clean_str, clean_all. rewrite E. cbn [cl_br cl_q cl_out repeat List.app]. rewrite app_nil_r. apply rev_involutive. }
    apply (answer_of cf p _ (Some (Cls Should (fld df f (AWild [42])) None, MNil))); try assumption.
    - split.
      + cbn [top_wf c_wf m_wf]. split; [|exact Logic.I]. apply wf_fld. exact Logic.I.
      + unfold toks_of. rewrite PS. rewrite (tok_named cf df (q_kw cf) f (AWild [42]) [42] []); [cbn [top_toks c_toks t_sign t_opt m_toks List.app]; rewrite !app_nil_r; reflexivity|exact K|reflexivity|].
        pose proof (tok_wild (q_kw cf) [42] [] PT Logic.I eq_refl) as TW. cbn [List.app] in TW. rewrite TW. reflexivity.
    - cbn [top_toks c_toks t_sign t_opt m_toks List.app]. rewrite !app_nil_r. apply (sh_fld cf); [exact K|]. constructor; [|constructor]. cbn. lia.
    - unfold value. rewrite HF. cbn [top_eval m_eval]. rewrite c_eval_eq, (eval_fld cf df d _ HD) by exact K. cbn [eval]. unfold over, flds, get_wild_q. rewrite (low_for cf _ f [42]); [reflexivity|intros _; exact LO|cbn; lia].
  Qed.
End CLAUSES.
