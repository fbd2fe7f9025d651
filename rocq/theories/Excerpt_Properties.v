From Coq Require Import Sorting.Permutation Sorting.Sorted.
From Verif Require Import Util Match_Model Match_Spec Match_Proofs Match_Properties PQueue_Model Excerpt_Model Excerpt_Spec Excerpt_Proofs ExcerptShow_Proofs ExcerptTop_Proofs.
Open Scope Z_scope.
(* what the theorems ask of a field and of the matches in it *)
Definition field_ok (text : list Z) (offs ms : list (Z * Z)) : Prop :=
  offsets_ok text offs ms /\ offsets_rise text offs /\ (forall p o, edge ms p -> nth_error offs p = Some o -> 0 < snd o) /\ ms <> [].
(* the matches joined as far as they overlap, with their numbers *)
Definition joined (ms : list (Z * Z)) (out : list mr) : Prop :=
  apart 0 out /\ (forall p, covers out p <-> covers (map range ms) p) /\ (forall p, joins out p <-> joins (map range ms) p) /\ (forall o, In o out -> m_score o = total (filter (within o) (map range ms))).
Definition short (len : Z) (os : list (Z * Z)) : Prop := forall o, In o os -> snd o - fst o <= len.
Definition asked (text : list Z) (len num : Z) : Prop := 0 < len /\ 0 < num /\ len * num <= Z.of_nat (length text) /\ len * num < 2 ^ 31.
Definition plain (text : list Z) : ldf := mkLdf text (Z.of_nat (length text)) false.

Lemma highlights_all qsort esort text offs ms len num pre post ell : qsorts qsort -> esorts esort -> field_ok text offs ms -> asked text len num ->
  exists out, joined ms out /\ (forall k, (k < length out)%nat -> 1 <= nth k (map m_score out) 0) /\ chain (Z.of_nat (length text)) 0 (map (offset_pair offs) out) /\ (short len (map (offset_pair offs) out) ->
    let os := map (offset_pair offs) out in let sc := map m_score out in
    exists ps ws, highlight qsort esort (vec_of ms) (plain text) offs len num pre post ell = Some (Some (map (shown text pre post ell os) ps)) /\ Z.of_nat (length ps) <= num /\ StronglySorted apart_p ps /\ Forall (sound text os) ps /\ lengths ps <= len * num /\
      greedy len os sc [] ws /\ Z.of_nat (length ws) = Z.min num (Z.of_nat (length out)) /\ (forall x, In x ws -> exists p, In p ps /\ contains p x) /\
      (num = 1 -> forall p, In p ps -> exists x, ws = [x] /\ p_first p = fst x /\ p_next p = S (snd x))).
Proof.
  intros Hq He (HO & HR & HT & Hne) (A1 & A2 & A3 & A4). pose proof (vec_ok ms) as HV. assert (Hne2 : map range ms <> []) by (destruct ms; [congruence|discriminate]).
  destruct (compact_ok true qsort Hq _ _ HV Hne2 (proper_range text offs ms HO)) as (w & out & E1 & E2 & HG). exists out. pose proof HG as [G1 G2 _ G4 _ G6 _ _ G9]. split; [unfold joined; split; [exact G1|]; split; [exact G4|]; split; [exact (G6 eq_refl)|exact (G9 eq_refl)]|].
  split; [intros k Hk; apply (sc_pos offs ms HT out HG k Hk)|]. split; [apply (os_chain text offs ms HO out HG)|].
  intros HS os sc. assert (Hfit : forall i, (i < length os)%nat -> en os i <= st os i + len) by (intros i Hi; pose proof (HS (nth i os (0, 0)) (nth_In _ _ Hi)); unfold en, st; lia).
  destruct (ExcerptTop_Proofs.excerpts_ok qsort esort He text pre post ell offs ms len HO HR HT Hne A1 out HG Hfit (Z.to_nat num) w E1 E2) as (ps & ws & R1 & R2 & R3 & R4 & R5 & R6 & R7 & R8 & R9).
  exists ps, ws. unfold highlight. cbn [f_len plain]. rewrite (proj2 (Z.ltb_ge (len * num) _)) by nia. rewrite (proj2 (Z.leb_gt _ _)) by exact A4. cbn [orb]. rewrite (proj2 (Z.ltb_ge (Z.of_nat (length text)) _)) by lia.
  assert (Hsz : v_size (vec_of ms) = length ms) by (destruct HV as (gap & ->); cbn [v_size]; apply map_length). rewrite Hsz, (proj2 (Nat.ltb_lt 0 _)) by (destruct ms; [congruence|cbn; lia]). rewrite (proj2 (Z.ltb_ge num 0)) by lia. unfold plain. rewrite R1. cbn [obind]. rewrite Z2Nat.id in R5 by lia.
  splits; auto; try lia. intros ->. apply R9. reflexivity.
Qed.
Lemma untag_part text : forall ms from b, 0 <= from -> chain b from ms -> b <= Z.of_nat (length text) -> marked text [] [] from ms b = slice text from b.
Proof.
  induction ms as [|(s, e) ms IH]; intros from b H0 H Hb; cbn [marked chain] in *; [reflexivity|]. destruct H as (H1 & H2 & H3). pose proof (chain_le _ _ _ H3). rewrite (IH e) by (auto; lia). cbn [app]. rewrite slice_app by lia. apply slice_app; lia.
Qed.
Lemma no_tags text os p : chain (Z.of_nat (length text)) 0 os -> sound text os p -> shown text [] [] [] os p = slice text (p_from p) (p_to p).
Proof.
  intros HC (H1 & H2 & H3 & H4). unfold shown. assert (Es : stop text [] (p_to p) = p_to p) by (unfold stop; cbn [length Z.of_nat]; destruct (Z.leb_spec (Z.of_nat (length text) - p_to p) 0); lia). rewrite Es.
  assert (E0 : (if 0 <? p_from p then [] else []) = @nil Z) by (destruct (0 <? p_from p); reflexivity). assert (E1 : (if p_to p <? Z.of_nat (length text) then [] else []) = @nil Z) by (destruct (p_to p <? Z.of_nat (length text)); reflexivity). rewrite E0, E1. cbn [app]. rewrite app_nil_r. apply untag_part; [lia| |exact H2].
  unfold run. apply (run_chain text [] os); [intros q o X; destruct q; discriminate|intros q ? ? ? ? X; destruct q; discriminate| | |lia|lia|].
  - intros i Hi. apply (chain_facts _ _ _ HC i Hi).
  - intros i j Hij. apply (chain_facts _ _ _ HC i ltac:(lia)). lia.
  - intros k Hk. apply H4. lia.
Qed.

(* ---------- C110 *)
Lemma excerpts_shape qsort esort text offs ms len num pre post ell : qsorts qsort -> esorts esort -> field_ok text offs ms -> asked text len num ->
  exists out, joined ms out /\ (short len (map (offset_pair offs) out) -> let os := map (offset_pair offs) out in
    exists ps, highlight qsort esort (vec_of ms) (plain text) offs len num pre post ell = Some (Some (map (shown text pre post ell os) ps)) /\
      1 <= Z.of_nat (length ps) <= num /\ StronglySorted (fun p q => p_to p <= p_from q) ps /\ Forall (sound text os) ps /\ lengths ps <= len * num /\
      (forall p, In p ps -> shown text [] [] [] os p = slice text (p_from p) (p_to p))).
Proof.
  intros Hq He HF HA. destruct (highlights_all qsort esort text offs ms len num pre post ell Hq He HF HA) as (out & HJ & HP & HC & HX). exists out. split; [exact HJ|]. intros HS os. destruct (HX HS) as (ps & ws & R1 & R2 & R3 & R4 & R5 & R6 & R7 & R8 & _). exists ps. splits; auto.
  - assert (Hout : out <> []). { intros ->. destruct HF as (HO & _ & _ & Hne). destruct ms as [|m t]; [congruence|]. destruct HJ as (_ & HJ & _). destruct (proj1 HO m (or_introl eq_refl)) as (M1 & _). destruct (proj2 (HJ (fst m))) as (o & [] & _). exists (range m). split; [left; reflexivity|]. cbn. lia. }
    destruct HA as (_ & HA & _). destruct ws as [|x ws]; [cbn [length] in R7; destruct out; [congruence|cbn [length] in R7; lia]|]. destruct (R8 x (or_introl eq_refl)) as (p & Hp & _). destruct ps; [contradiction|cbn [length]; lia].
  - intros p Hp. apply no_tags; [exact HC|]. rewrite Forall_forall in R4. apply R4. exact Hp.
Qed.
Theorem C110_excerpts : forall qsort esort text offs ms len num pre post ell, qsorts qsort -> esorts esort -> field_ok text offs ms -> asked text len num ->
  exists out, joined ms out /\ (short len (map (offset_pair offs) out) -> let os := map (offset_pair offs) out in
    exists ps, highlight qsort esort (vec_of ms) (plain text) offs len num pre post ell = Some (Some (map (shown text pre post ell os) ps)) /\
      1 <= Z.of_nat (length ps) <= num /\ StronglySorted (fun p q => p_to p <= p_from q) ps /\ Forall (sound text os) ps /\ lengths ps <= len * num /\
      (forall p, In p ps -> shown text [] [] [] os p = slice text (p_from p) (p_to p))).
Proof. exact excerpts_shape. Qed.
Print Assumptions C110_excerpts.

(* ---------- C111 *)
Lemma excerpts_greedy qsort esort text offs ms len num pre post ell : qsorts qsort -> esorts esort -> field_ok text offs ms -> asked text len num ->
  exists out, joined ms out /\ (short len (map (offset_pair offs) out) -> let os := map (offset_pair offs) out in
    exists ps ws, highlight qsort esort (vec_of ms) (plain text) offs len num pre post ell = Some (Some (map (shown text pre post ell os) ps)) /\
      greedy len os (map m_score out) [] ws /\ Z.of_nat (length ws) = Z.min num (Z.of_nat (length out)) /\ (forall w, In w ws -> exists p, In p ps /\ contains p w)).
Proof.
  intros Hq He HF HA. destruct (highlights_all qsort esort text offs ms len num pre post ell Hq He HF HA) as (out & HJ & HP & HC & HX). exists out. split; [exact HJ|]. intros HS os. destruct (HX HS) as (ps & ws & R1 & R2 & R3 & R4 & R5 & R6 & R7 & R8 & _). exists ps, ws. auto.
Qed.
Theorem C111_best_windows : forall qsort esort text offs ms len num pre post ell, qsorts qsort -> esorts esort -> field_ok text offs ms -> asked text len num ->
  exists out, joined ms out /\ (short len (map (offset_pair offs) out) -> let os := map (offset_pair offs) out in
    exists ps ws, highlight qsort esort (vec_of ms) (plain text) offs len num pre post ell = Some (Some (map (shown text pre post ell os) ps)) /\
      greedy len os (map m_score out) [] ws /\ Z.of_nat (length ws) = Z.min num (Z.of_nat (length out)) /\ (forall w, In w ws -> exists p, In p ps /\ contains p w)).
Proof. exact excerpts_greedy. Qed.
Print Assumptions C111_best_windows.
(* one excerpt: it has the most matches that fit, and all matches in it are tagged *)
Lemma one_excerpt qsort esort text offs ms len pre post ell : qsorts qsort -> esorts esort -> field_ok text offs ms -> asked text len 1 ->
  exists out, joined ms out /\ (short len (map (offset_pair offs) out) -> let os := map (offset_pair offs) out in
    exists p, highlight qsort esort (vec_of ms) (plain text) offs len 1 pre post ell = Some (Some [shown text pre post ell os p]) /\ sound text os p /\ p_to p - p_from p <= len /\
      (forall w, window len os w -> worth (map m_score out) [] w <= worth (map m_score out) [] (p_first p, p_next p - 1)%nat) /\
      (forall k, (k < length os)%nat -> p_from p <= st os k -> en os k <= p_to p -> (p_first p <= k < p_next p)%nat)).
Proof.
  intros Hq He HF HA. destruct (highlights_all qsort esort text offs ms len 1 pre post ell Hq He HF HA) as (out & HJ & HP & HC & HX). exists out. split; [exact HJ|]. intros HS os. destruct (HX HS) as (ps & ws & R1 & R2 & R3 & R4 & R5 & R6 & R7 & R8 & R9).
  assert (Hout : (1 <= length out)%nat). { destruct out as [|o t]; [|cbn; lia]. exfalso. destruct HF as (HO & _ & _ & Hne). destruct ms as [|m u]; [congruence|]. destruct HJ as (_ & HJ & _). destruct (proj1 HO m (or_introl eq_refl)) as (M1 & _). destruct (proj2 (HJ (fst m))) as (o & [] & _). exists (range m). split; [left; reflexivity|]. cbn. lia. }
  destruct ws as [|x ws]; [cbn [length] in R7; lia|]. destruct (R8 x (or_introl eq_refl)) as (p & Hp & _). destruct ps as [|p0 [|? ?]]; [contradiction| |cbn [length] in R2; lia]. destruct Hp as [->|[]]. exists p.
  destruct (R9 eq_refl p (or_introl eq_refl)) as (y & Ey & Y1 & Y2). injection Ey as -> ->. destruct R6 as (W1 & W2 & _). destruct y as (i, j). cbn [fst snd] in *. pose proof (Forall_inv R4) as SD. unfold lengths, zsum in R5. cbn [map fold_right] in R5. rewrite Y1, Y2. replace (S j - 1)%nat with j by lia.
  splits; auto; [lia|]. intros k Hk K1 K2. destruct W1 as (W11 & W12). cbn [fst snd] in *. destruct SD as (D1 & D2 & D3 & D4). fold os in W11, W12, D3, D4, W2. rewrite Y1, Y2 in *. pose proof (D4 i ltac:(lia)) as (I1 & I2). pose proof (D4 j ltac:(lia)) as (J1 & J2). pose proof HP as HP0.
  assert (Hen : forall a b, (a <= b < length os)%nat -> en os a <= en os b). { intros a b Hab. destruct (Nat.eq_dec a b) as [->|]; [lia|]. pose proof (chain_facts _ _ _ HC a ltac:(unfold os in *; lia)) as (_ & A2 & _ & A4). pose proof (chain_facts _ _ _ HC b ltac:(unfold os in *; lia)) as (_ & B2 & _). specialize (A4 b ltac:(unfold os in *; lia)). unfold os. lia. }
  assert (Hst : forall a b, (a <= b < length os)%nat -> st os a <= st os b). { intros a b Hab. destruct (Nat.eq_dec a b) as [->|]; [lia|]. pose proof (chain_facts _ _ _ HC a ltac:(unfold os in *; lia)) as (_ & A2 & _ & A4). specialize (A4 b ltac:(unfold os in *; lia)). unfold os. lia. }
  assert (Hnn : forall t, 0 <= nth t (masked (map m_score out) []) 0). { intros t. rewrite masked_nth. cbn [hidden existsb]. destruct (Nat.ltb_spec t (length out)) as [D|D]; [specialize (HP t D); lia|]. rewrite nth_overflow by (rewrite map_length; exact D). lia. }
  assert (Hpos : forall t, (t < length os)%nat -> 1 <= nth t (masked (map m_score out) []) 0). { intros t Ht. rewrite masked_nth. cbn [hidden existsb]. apply HP. unfold os in Ht. rewrite map_length in Ht. exact Ht. }
  destruct (Nat.ltb_spec k i) as [Hki|Hki]; [|destruct (Nat.leb_spec k j) as [Hkj|Hkj]; [lia|]].
  - (* an earlier match inside: the window from it would be better *)
    exfalso. specialize (W2 (k, j)). rewrite !worth_win in W2. specialize (W2 ltac:(split; cbn [fst snd]; [lia|]; lia)).
    assert (HW : forall n, win (masked (map m_score out) []) (i - n) (S j - i + n) >= win (masked (map m_score out) []) i (S j - i) + Z.of_nat (Nat.min n i)).
    { induction n as [|n IHn]; [rewrite Nat.sub_0_r, Nat.add_0_r; cbn; lia|]. destruct (Nat.leb_spec (S n) i) as [D|D].
      - replace (S j - i + S n)%nat with (S (S j - i + n)) by lia. rewrite win_first. replace (S (i - S n)) with (i - n)%nat by lia. specialize (Hpos (i - S n)%nat ltac:(lia)). lia.
      - replace (i - S n)%nat with (i - n)%nat by lia. replace (S j - i + S n)%nat with (S (S j - i + n)) by lia. rewrite win_last. specialize (Hnn (i - n + (S j - i + n))%nat). lia. }
    specialize (HW (i - k)%nat). replace (i - (i - k))%nat with k in HW by lia. replace (S j - i + (i - k))%nat with (S j - k)%nat in HW by lia. lia.
  - exfalso. specialize (W2 (i, k)). rewrite !worth_win in W2. specialize (W2 ltac:(split; cbn [fst snd]; [lia|]; lia)).
    assert (HW : win (masked (map m_score out) []) i (S j - i) + nth (S j) (masked (map m_score out) []) 0 <= win (masked (map m_score out) []) i (S k - i)).
    { transitivity (win (masked (map m_score out) []) i (S (S j - i))); [rewrite win_last; replace (i + (S j - i))%nat with (S j) by lia; lia|]. apply win_mono; [exact Hnn|lia]. }
    specialize (Hpos (S j) ltac:(lia)). lia.
Qed.
Theorem C111_one_excerpt : forall qsort esort text offs ms len pre post ell, qsorts qsort -> esorts esort -> field_ok text offs ms -> asked text len 1 ->
  exists out, joined ms out /\ (short len (map (offset_pair offs) out) -> let os := map (offset_pair offs) out in
    exists p, highlight qsort esort (vec_of ms) (plain text) offs len 1 pre post ell = Some (Some [shown text pre post ell os p]) /\ sound text os p /\ p_to p - p_from p <= len /\
      (forall w, window len os w -> worth (map m_score out) [] w <= worth (map m_score out) [] (p_first p, p_next p - 1)%nat) /\
      (forall k, (k < length os)%nat -> p_from p <= st os k -> en os k <= p_to p -> (p_first p <= k < p_next p)%nat)).
Proof. exact one_excerpt. Qed.
Print Assumptions C111_one_excerpt.
(* a qsort for excerpts *)
Fixpoint xins (cmp : exc -> exc -> Z) (a : exc) (l : list exc) : list exc := match l with [] => [a] | b :: t => if cmp a b <=? 0 then a :: l else b :: xins cmp a t end.
Definition xsort (cmp : exc -> exc -> Z) (l : list exc) : list exc := fold_right (xins cmp) [] l.
Lemma xins_perm cmp a l : Permutation (a :: l) (xins cmp a l).
Proof. induction l as [|b t IH]; cbn [xins]; [reflexivity|]. destruct (cmp a b <=? 0); [reflexivity|]. rewrite perm_swap. constructor. exact IH. Qed.
Lemma xsorts : esorts xsort.
Proof.
  intros cmp Ht Hc l. split; [induction l as [|a l IH]; cbn; [constructor|]; etransitivity; [constructor; exact IH|apply xins_perm]|].
  induction l as [|a l IH]; cbn [xsort fold_right]; [constructor|]. fold (xsort cmp l). revert IH. generalize (xsort cmp l). intros q Hq. induction Hq as [|b t Hs IHs HF]; cbn [xins]; [constructor; constructor|]. destruct (Z.leb_spec (cmp a b) 0) as [H|H].
  - constructor; [constructor; assumption|]. constructor; [exact H|]. rewrite Forall_forall in *. intros x Hx. apply (Hc a b x); auto.
  - constructor; [exact IHs|]. assert (Hba : cmp b a <= 0) by (destruct (Ht a b); lia). rewrite Forall_forall in *. intros x Hx. apply (Permutation_in _ (Permutation_sym (xins_perm cmp a t))) in Hx. destruct Hx as [<-|Hx]; auto.
Qed.
(* "a bbbbb cccc ddd ee ffffff", and ten words of two letters with the offsets of the fourth skipped *)
Definition c110_text : list Z := [97; 32; 98; 98; 98; 98; 98; 32; 99; 99; 99; 99; 32; 100; 100; 100; 32; 101; 101; 32; 102; 102; 102; 102; 102; 102].
Definition c110_offs : list (Z * Z) := [(0, 1); (2, 7); (8, 12); (13, 16); (17, 19); (20, 26)].
Definition c110_words : list Z := flat_map (fun k => [97 + k; 97 + k; 32]) [0; 1; 2; 3; 4; 5; 6; 7; 8; 9].
Definition c110_woffs : list (Z * Z) := [(0, 2); (3, 5); (6, 8); (9, 11); (0, 0); (15, 17); (18, 20); (21, 23); (24, 26); (27, 29)].
(* a check of what the theorems ask *)
Definition fieldb (text : list Z) (offs ms : list (Z * Z)) : bool :=
  let n := Z.of_nat (length text) in let c := Z.of_nat (length offs) in
  let ps := seq 0 (length offs) in let at_ := fun p => nth p offs (0, 0) in
  let ed := fun p : nat => existsb (fun m : Z * Z => (Z.of_nat p =? fst m) || (Z.of_nat p =? snd m)) ms in
  forallb (fun m : Z * Z => (0 <=? fst m) && (fst m <=? snd m) && (snd m <? c)) ms &&
  forallb (fun p => (0 <=? fst (at_ p)) && (fst (at_ p) <=? snd (at_ p)) && (snd (at_ p) <=? n) && (negb (ed p) || (0 <? snd (at_ p)))) ps &&
  forallb (fun p => forallb (fun q => negb (p <? q)%nat || ((negb (ed p && ed q) || (snd (at_ p) <=? fst (at_ q))) && (((fst (at_ q) =? 0) && (snd (at_ q) =? 0)) || ((fst (at_ p) <=? fst (at_ q)) && (snd (at_ p) <=? snd (at_ q)))))) ps) ps &&
  negb (match ms with [] => true | _ => false end).
Lemma fieldb_ok text offs ms : fieldb text offs ms = true -> field_ok text offs ms.
Proof.
  unfold fieldb. rewrite !andb_true_iff. intros (((H1 & H2) & H3) & H4). rewrite forallb_forall in H1, H2, H3.
  assert (Hin : forall p o, nth_error offs p = Some o -> In p (seq 0 (length offs)) /\ nth p offs (0, 0) = o) by (intros p o E; split; [apply in_seq; split; [lia|]; apply nth_error_Some; congruence|apply nth_error_nth; exact E]).
  assert (Hed : forall p, edge ms p -> existsb (fun m : Z * Z => (Z.of_nat p =? fst m) || (Z.of_nat p =? snd m)) ms = true) by (intros p (m & Hm & E); apply existsb_exists; exists m; split; [exact Hm|]; destruct E as [E|E]; rewrite E, Z.eqb_refl; [reflexivity|apply orb_true_r]).
  assert (H2b : forall p o, nth_error offs p = Some o -> 0 <= fst o <= snd o /\ snd o <= Z.of_nat (length text) /\ (edge ms p -> 0 < snd o)).
  { intros p o E. destruct (Hin p o E) as (I1 & I2). specialize (H2 p I1). rewrite I2 in H2. rewrite !andb_true_iff, !Z.leb_le in H2. destruct H2 as (((A & B) & C) & D). splits; auto. intros He. rewrite (Hed p He) in D. cbn [negb orb] in D. apply Z.ltb_lt in D. exact D. }
  assert (H3b : forall p q o r, (p < q)%nat -> nth_error offs p = Some o -> nth_error offs q = Some r -> (edge ms p -> edge ms q -> snd o <= fst r) /\ (r = (0, 0) \/ (fst o <= fst r /\ snd o <= snd r))).
  { intros p q o r Hpq Ep Eq. destruct (Hin p o Ep) as (I1 & I2), (Hin q r Eq) as (J1 & J2). specialize (H3 p I1). rewrite forallb_forall in H3. specialize (H3 q J1). rewrite (proj2 (Nat.ltb_lt _ _) Hpq), I2, J2 in H3. cbn [negb orb] in H3. rewrite andb_true_iff in H3. destruct H3 as (A & B). split.
    - intros E1 E2. rewrite (Hed p E1), (Hed q E2) in A. cbn [andb negb orb] in A. apply Z.leb_le. exact A.
    - rewrite orb_true_iff, !andb_true_iff, !Z.eqb_eq, !Z.leb_le in B. destruct B as [(B1 & B2)|B]; [left; destruct r; cbn [fst snd] in *; congruence|right; exact B]. }
  unfold field_ok. splits.
  - unfold offsets_ok. splits.
    + intros m Hm. specialize (H1 m Hm). rewrite !andb_true_iff, !Z.leb_le, Z.ltb_lt in H1. lia.
    + intros p o _ E. destruct (H2b p o E) as (A & B & _). auto.
    + intros p q o r E1 E2 Hpq Ep Eq. apply (H3b p q o r Hpq Ep Eq); assumption.
  - split; [intros p o E; destruct (H2b p o E) as (A & B & _); auto|]. intros p q o r Hpq Ep Eq. apply (H3b p q o r Hpq Ep Eq).
  - intros p o He E. destruct (H2b p o E) as (_ & _ & C). auto.
  - destruct ms; [discriminate|congruence].
Qed.
(* ".bb <cc> <dd>." and ".hh <ii> jj "; with three excerpts one long one; with five and six bytes the whole start *)
Example C110_example : field_ok c110_words c110_woffs [(2, 2); (3, 3); (8, 8)] /\ asked c110_words 9 2 /\
  highlight isort xsort (vec_of [(2, 2); (3, 3); (8, 8)]) (plain c110_words) c110_woffs 9 2 [60] [62] [46] =
    Some (Some [[46; 98; 98; 32; 60; 99; 99; 62; 32; 60; 100; 100; 62; 46]; [46; 104; 104; 32; 60; 105; 105; 62; 32; 106; 106; 32]]) /\
  highlight isort xsort (vec_of [(2, 2); (3, 3); (8, 8)]) (plain c110_words) c110_woffs 9 3 [60] [62] [46] =
    Some (Some [[46; 98; 98; 32; 60; 99; 99; 62; 32; 60; 100; 100; 62; 32; 101; 101; 32; 102; 102; 32; 103; 103; 32; 104; 104; 32; 60; 105; 105; 62; 32; 106; 106; 32]]) /\
  highlight isort xsort (vec_of [(2, 2); (3, 3); (8, 8)]) (plain c110_words) c110_woffs 6 5 [60] [62] [46] =
    Some (Some [[97; 97; 32; 98; 98; 32; 60; 99; 99; 62; 32; 60; 100; 100; 62; 32; 101; 101; 32; 102; 102; 32; 103; 103; 32; 104; 104; 32; 60; 105; 105; 62; 32; 106; 106; 32]]).
Proof. split; [apply fieldb_ok; vm_compute; reflexivity|]. split; [unfold asked; splits; vm_compute; congruence|]. vm_compute. auto. Qed.
(* one excerpt of nine bytes takes the two matches, not the one *)
Example C111_example : asked c110_words 9 1 /\ highlight isort xsort (vec_of [(0, 0); (5, 5); (6, 6)]) (plain c110_words) c110_woffs 9 1 [60] [62] [46] = Some (Some [[46; 60; 102; 102; 62; 32; 60; 103; 103; 62; 32; 104; 104; 46]]) /\
  worth [1; 1; 1] [] (1, 2)%nat = 2 /\ worth [1; 1; 1] [(1, 1)%nat] (1, 2)%nat = 1.
Proof. split; [unfold asked; splits; vm_compute; congruence|]. vm_compute. auto. Qed.

(* ---------- C112 *)
Definition c112_ms : list (Z * Z) := [(0, 0); (2, 2); (2, 2); (4, 4)].
(* two excerpts of ten bytes: "a bbbbb <cccc> ddd <ee>." *)
Lemma untagged : exists p k, let os := map (offset_pair c110_offs) [mkMr 0 0 1; mkMr 2 2 2; mkMr 4 4 1] in
  field_ok c110_text c110_offs c112_ms /\ asked c110_text 10 2 /\ short 10 os /\ show (compact isort true (vec_of c112_ms)) = Some [(0, 0, 1); (2, 2, 2); (4, 4, 1)] /\
  highlight isort xsort (vec_of c112_ms) (plain c110_text) c110_offs 10 2 [60] [62] [46] = Some (Some [shown c110_text [60] [62] [46] os p]) /\
  (k < length os)%nat /\ p_from p <= st os k /\ en os k <= p_to p /\ ~ (p_first p <= k < p_next p)%nat.
Proof.
  exists (mkPart 0 19 1 3), 0%nat. cbn zeta. split; [apply fieldb_ok; vm_compute; reflexivity|]. split; [unfold asked; splits; vm_compute; congruence|]. split; [intros o [<-|[<-|[<-|[]]]]; vm_compute; congruence|]. split; [vm_compute; reflexivity|]. split; [vm_compute; reflexivity|]. cbn. lia.
Qed.
Theorem C112_untagged_refuted : exists p k, let os := map (offset_pair c110_offs) [mkMr 0 0 1; mkMr 2 2 2; mkMr 4 4 1] in
  field_ok c110_text c110_offs c112_ms /\ asked c110_text 10 2 /\ short 10 os /\ show (compact isort true (vec_of c112_ms)) = Some [(0, 0, 1); (2, 2, 2); (4, 4, 1)] /\
  highlight isort xsort (vec_of c112_ms) (plain c110_text) c110_offs 10 2 [60] [62] [46] = Some (Some [shown c110_text [60] [62] [46] os p]) /\
  (k < length os)%nat /\ p_from p <= st os k /\ en os k <= p_to p /\ ~ (p_first p <= k < p_next p)%nat.
Proof. exact untagged. Qed.
Print Assumptions C112_untagged_refuted.
(* an ellipsis of twelve bytes: the first excerpt runs to the end of the text and the second shows the last word again *)
Lemma repeated : exists p q, let os := map (offset_pair c110_woffs) [mkMr 6 6 1; mkMr 9 9 1] in
  field_ok c110_words c110_woffs [(6, 6); (9, 9)] /\ asked c110_words 5 2 /\ short 5 os /\
  highlight isort xsort (vec_of [(6, 6); (9, 9)]) (plain c110_words) c110_woffs 5 2 [60] [62] (repeat 46 12) = Some (Some (map (shown c110_words [60] [62] (repeat 46 12) os) [p; q])) /\
  sound c110_words os p /\ sound c110_words os q /\ p_from q < p_to q /\ p_from q < stop c110_words (repeat 46 12) (p_to p).
Proof.
  exists (mkPart 18 20 0 1), (mkPart 27 29 1 2). cbn zeta. split; [apply fieldb_ok; vm_compute; reflexivity|]. split; [unfold asked; splits; vm_compute; congruence|]. split; [intros o [<-|[<-|[]]]; vm_compute; congruence|]. split; [vm_compute; reflexivity|].
  assert (HS : forall a b f x, 0 <= a <= b -> b <= 30 -> (f < 2)%nat -> a <= st (map (offset_pair c110_woffs) [mkMr 6 6 1; mkMr 9 9 1]) f -> en (map (offset_pair c110_woffs) [mkMr 6 6 1; mkMr 9 9 1]) f <= b -> x = S f -> sound c110_words (map (offset_pair c110_woffs) [mkMr 6 6 1; mkMr 9 9 1]) (mkPart a b f x)).
  { intros a b f x H1 H2 H3 H4 H5 ->. unfold sound. cbn [p_from p_to p_first p_next length map]. splits; try lia; [exact H2|]. intros k Hk. assert (k = f) by lia. subst k. split; assumption. }
  split; [apply HS; try split; try (vm_compute; congruence); lia|]. split; [apply HS; try split; try (vm_compute; congruence); lia|]. vm_compute. auto.
Qed.
Theorem C112_repeated_refuted : exists p q, let os := map (offset_pair c110_woffs) [mkMr 6 6 1; mkMr 9 9 1] in
  field_ok c110_words c110_woffs [(6, 6); (9, 9)] /\ asked c110_words 5 2 /\ short 5 os /\
  highlight isort xsort (vec_of [(6, 6); (9, 9)]) (plain c110_words) c110_woffs 5 2 [60] [62] (repeat 46 12) = Some (Some (map (shown c110_words [60] [62] (repeat 46 12) os) [p; q])) /\
  sound c110_words os p /\ sound c110_words os q /\ p_from q < p_to q /\ p_from q < stop c110_words (repeat 46 12) (p_to p).
Proof. exact repeated. Qed.
Print Assumptions C112_repeated_refuted.
(* a phrase longer than the excerpts: the match before the first one is read *)
Lemma long_phrase : field_ok c110_words c110_woffs [(2, 5)] /\ asked c110_words 6 2 /\ highlight isort xsort (vec_of [(2, 5)]) (plain c110_words) c110_woffs 6 2 [60] [62] [46] = None.
Proof. split; [apply fieldb_ok; vm_compute; reflexivity|]. split; [unfold asked; splits; vm_compute; congruence|]. vm_compute. reflexivity. Qed.
Theorem C112_long_phrase_refuted : field_ok c110_words c110_woffs [(2, 5)] /\ asked c110_words 6 2 /\ highlight isort xsort (vec_of [(2, 5)]) (plain c110_words) c110_woffs 6 2 [60] [62] [46] = None.
Proof. exact long_phrase. Qed.
Print Assumptions C112_long_phrase_refuted.
