From Coq Require Import List ZArith Bool Arith Lia.
From Verif Require Import Util Text_Model Text_Spec Text_Proofs TextQ_Proofs TextAll_Proofs.
Import ListNotations.
Open Scope Z_scope.

(* the sort of phq_to_s *)
Lemma strcmp_sym : forall a b, strcmp b a = CompOpp (strcmp a b).
Proof.
  intros a. induction a as [|x a IH]; intros [|y b]; cbn [strcmp]; try reflexivity. rewrite (Z.compare_antisym x y). destruct (x ?= y); cbn [CompOpp]; [apply IH|reflexivity|reflexivity].
Qed.
Lemma pos_le_total : forall p q, pos_le p q = false -> pos_le q p = true.
Proof.
  intros p q. unfold pos_le. destruct (fst p <? fst q) eqn:E1; [discriminate|]. destruct (fst q <? fst p) eqn:E2; [reflexivity|]. rewrite (strcmp_sym (hd [] (snd p))).
  destruct (strcmp (hd [] (snd p)) (hd [] (snd q))); cbn [CompOpp]; congruence.
Qed.
Inductive ordered : list (Z * list str) -> Prop :=
  | or_nil : ordered []
  | or_one p : ordered [p]
  | or_cons p q l : pos_le p q = true -> ordered (q :: l) -> ordered (p :: q :: l).
Lemma insert_ordered : forall p l, ordered l -> ordered (insert p l).
Proof.
  intros p l H. induction H as [|q|q r l Hq H IH]; cbn [insert].
  - constructor.
  - destruct (pos_le p q) eqn:E; constructor; try constructor; [exact E|apply pos_le_total; exact E].
  - cbn [insert] in IH. destruct (pos_le p q) eqn:E; [constructor; [exact E|constructor; assumption]|].
    destruct (pos_le p r) eqn:E2; constructor; try assumption. apply pos_le_total. exact E.
Qed.
Lemma sort_ordered : forall l, ordered (sort l).
Proof. intros l. unfold sort. induction l as [|p l IH]; cbn [fold_right]; [constructor|apply insert_ordered, IH]. Qed.
Lemma ordered_sort : forall l, ordered l -> sort l = l.
Proof.
  intros l H. unfold sort. induction H as [|q|q r l Hq H IH]; [reflexivity|reflexivity|]. cbn [fold_right] in *. rewrite IH. cbn [insert]. rewrite Hq. reflexivity.
Qed.
Lemma sort_twice : forall l, sort (sort l) = sort l.
Proof. intros l. apply ordered_sort, sort_ordered. Qed.
Lemma to_s_again : forall df q, to_s df (after_to_s q) = to_s df q.
Proof.
  intros df q. destruct q as [| |f ps slop b| | | | | | | | | | | | | | |]; try reflexivity. destruct ps as [|p ps]; [reflexivity|]. cbn [after_to_s]. unfold to_s. f_equal. cbn [q_block]. unfold phq_to_s.
  destruct (sort (p :: ps)) as [|p' ps'] eqn:E; [exfalso; exact (sort_nonempty _ _ E)|]. rewrite <- E, sort_twice. reflexivity.
Qed.
Lemma forallb_pairs : forall {A} (eqb : A -> A -> bool) (ok : forall x y, eqb x y = true <-> x = y) (l m : list A),
  (length l =? length m)%nat && forallb (fun x => eqb (fst x) (snd x)) (combine l m) = true <-> l = m.
Proof.
  intros A eqb ok l. induction l as [|x l IH]; intros [|y m]; cbn [length combine forallb Nat.eqb andb]; [split; reflexivity|split; discriminate|split; discriminate|].
  cbn [fst snd]. specialize (IH m). destruct (length l =? length m)%nat; cbn [andb] in *.
  - rewrite andb_true_iff, ok, IH. split; [intros (-> & ->); reflexivity|intros G; injection G; auto].
  - split; [discriminate|]. intros G. injection G as -> ->. destruct IH as (_ & IH). specialize (IH eq_refl). discriminate.
Qed.
Lemma list_eqb_eq : forall a b, list_eqb a b = true <-> a = b.
Proof.
  intros a. induction a as [|x a IH]; intros [|y b]; cbn [list_eqb]; [split; reflexivity|split; discriminate|split; discriminate|]. rewrite andb_true_iff, Z.eqb_eq, IH.
  split; [intros (-> & ->); reflexivity|intros G; injection G; auto].
Qed.
Lemma pos_eqb_ok : forall p q, pos_eqb p q = true <-> p = q.
Proof.
  intros [p ts] [q us]. unfold pos_eqb. cbn [fst snd]. rewrite <- andb_assoc, andb_true_iff, Z.eqb_eq, (forallb_pairs list_eqb (fun x y => list_eqb_eq x y)).
  split; [intros (-> & ->); reflexivity|intros G; injection G; auto].
Qed.
Lemma phq_eq_ok : forall f ps s b g qs s' b', phq_eq (Phrase f ps s b) (Phrase g qs s' b') = true <-> f = g /\ ps = qs /\ s = s'.
Proof.
  intros. unfold phq_eq. rewrite <- andb_assoc, !andb_true_iff, Z.eqb_eq, list_eqb_eq, <- andb_true_iff, (forallb_pairs pos_eqb pos_eqb_ok). tauto.
Qed.
Lemma sorts : forall f ps s b, let q := Phrase f ps s b in
  phq_eq q q = true /\ (phq_eq (after_to_s q) q = true <-> sort ps = ps).
Proof.
  intros f ps s b. cbv zeta. split; [apply phq_eq_ok; auto|]. destruct ps as [|p ps]; [cbn [after_to_s]; rewrite phq_eq_ok; tauto|]. cbn [after_to_s]. rewrite phq_eq_ok. tauto.
Qed.
Lemma gap_unsafe : forall df f ps slop b, 2 ^ 31 <= 3 * (fst (last (sort ps) (0, [])) - fst (hd (0, []) (sort ps))) -> to_s df (Phrase f ps slop b) = None.
Proof.
  intros df f ps slop b H. unfold to_s. cbn [q_block]. unfold phq_to_s. destruct ps as [|p ps]; [cbn in H; lia|]. cbv zeta.
  set (d := fst (last (sort (p :: ps)) (0, [])) - fst (hd (0, []) (sort (p :: ps)))) in *. clearbody d.
  unfold int at 1. destruct ((- 2 ^ 31 <=? d) && (d <? 2 ^ 31)); [|reflexivity]. cbn [obind].
  unfold int at 1. replace (3 * d <? 2 ^ 31) with false by (symmetry; apply Z.ltb_ge; lia). rewrite andb_false_r. reflexivity.
Qed.

(* clauses *)
Lemma bytes_map : forall s, Text_Model.bytes (map Some s) = Some s.
Proof. intros s. induction s as [|c s IH]; [reflexivity|]. cbn [map Text_Model.bytes]. rewrite IH. reflexivity. Qed.
Lemma bc_ok : forall o q, fine q -> bc_to_s o q = Some (occur_name o ++ [58] ++ spell None q ++ [0]).
Proof.
  intros o q H. unfold bc_to_s. rewrite (spelled None q H). cbn [obind]. cbv zeta. set (N := (length (occur_name o) + length (spell None q) + 2)%nat).
  destruct (print_ok _ _ _ (occur_name o ++ [58] ++ spell None q) (alloc_at N)) as (c & E & (r & Hm & Hi & Hl)); [unfold N; len; lia|]. rewrite E. cbn [obind]. cbn [List.app] in Hm.
  rewrite Hm. assert (r = []).
  { rewrite Hm in Hl. unfold N in Hl. destruct r; [reflexivity|]. len. lia. }
  subst r. rewrite app_nil_r. rewrite firstn_all2 by (unfold N; len; lia). rewrite bytes_map. f_equal. rewrite <- app_assoc. reflexivity.
Qed.

(* sorts *)
Lemma field_clean : forall ty f rev, clean ty -> (forall g, f = Some g -> clean g) -> clean (field_s ty f rev).
Proof.
  intros ty f rev Ht Hf. unfold field_s. apply clean_app; [destruct f as [f|]; [apply clean_app; [apply Hf; reflexivity|bytes]|constructor]|]. apply clean_app; [exact Ht|destruct rev; bytes].
Qed.
Lemma sort_field_ok : forall ty f rev, clean ty -> (forall g, f = Some g -> clean g) -> gives (sort_field_to_s ty f rev) (field_s ty f rev).
Proof.
  intros ty f rev Ht Hf. pose proof (field_clean ty f rev Ht Hf) as C. unfold sort_field_to_s, field_s, gives in *.
  assert (Lr : (length (if rev then [33%Z] else []) <= 1)%nat) by (destruct rev; cbn; lia).
  destruct f as [f|].
  - match goal with |- context [print _ ?l] => destruct (print_ok _ _ _ l (alloc_at (3 + length f + length ty))) as (c & E & H); [len; cbn [length]; destruct rev; cbn [length]; lia|] end.
    rewrite E. cbn [obind]. eexists. split; [reflexivity|]. cbn [List.app] in H. rewrite (ended_cstr _ _ _ H); [rewrite <- app_assoc; reflexivity|]. rewrite <- app_assoc in C. exact C.
  - match goal with |- context [print _ ?l] => destruct (print_ok _ _ _ l (alloc_at (2 + length ty))) as (c & E & H); [len; destruct rev; cbn [length]; lia|] end.
    rewrite E. cbn [obind]. eexists. split; [reflexivity|]. cbn [List.app] in H. rewrite (ended_cstr _ _ _ H); [reflexivity|exact C].
Qed.
Lemma all_str_ok : forall {A} (g : A -> option block) (h : A -> str) l, Forall (fun x => gives (g x) (h x)) l -> all_str (map g l) = Some (map h l).
Proof. intros A g h l H. induction H as [|x l (m & E & E2) H IH]; [reflexivity|]. cbn [map all_str]. rewrite E. cbn [obind]. rewrite E2. cbn [obind]. rewrite IH. reflexivity. Qed.
Lemma sort_loop_ok : forall ss c s n, at_ c s n -> (length s + length (concat (map (fun x => x ++ [44%Z; 32%Z]) ss)) < n)%nat ->
  exists c', sort_loop ss c = Some c' /\ at_ c' (s ++ concat (map (fun x => x ++ [44; 32]) ss)) n.
Proof.
  intros ss. induction ss as [|t ss IH]; intros c s n H L; cbn [sort_loop map concat] in *; [exists c; rewrite app_nil_r; auto|].
  destruct (print_ok c s n (t ++ [44; 32]) H) as (c1 & E1 & H1); [len; lia|]. rewrite E1. cbn [obind].
  destruct (IH c1 _ n (ended_at _ _ _ H1)) as (c2 & E2 & H2); [len; lia|]. exists c2. split; [exact E2|]. rewrite app_assoc. exact H2.
Qed.
Lemma rewind : forall m i s t n, at_ (m, i) (s ++ t) n -> at_ (m, (i - length t)%nat) s n.
Proof.
  intros m i s t n (r & Hm & Hi & Hl). cbn [fst snd] in *. exists (map Some t ++ r). cbn [fst snd]. split; [rewrite Hm, map_app, <- app_assoc; reflexivity|]. split; [len; lia|exact Hl].
Qed.
Lemma comma_join : forall ss, ss <> [] -> concat (map (fun x => x ++ [44; 32]) ss) = join [44; 32] ss ++ [44; 32].
Proof.
  intros ss H. induction ss as [|t ss IH]; [congruence|]. cbn [map concat join]. destruct ss as [|u ss]; [cbn [map concat]; apply app_nil_r|]. rewrite IH by discriminate. rewrite <- !app_assoc. reflexivity.
Qed.
Lemma sum2_len : forall (ss : list str) k, (length (concat (map (fun x => x ++ [44%Z; 32%Z]) ss)) + k = fold_right (fun s n => length s + 2 + n)%nat k ss)%nat.
Proof. intros ss k. induction ss as [|t ss IH]; cbn [map concat fold_right length]; [lia|]. rewrite <- IH. len. lia. Qed.
Lemma sort_ok : forall fs, Forall (fun x => clean (fst (fst x)) /\ (forall g, snd (fst x) = Some g -> clean g)) fs -> gives (sort_to_s fs) (sort_s fs).
Proof.
  intros fs H. unfold sort_to_s, sort_s, gives.
  assert (HG : Forall (fun x : str * option str * bool => gives (sort_field_to_s (fst (fst x)) (snd (fst x)) (snd x)) (field_s (fst (fst x)) (snd (fst x)) (snd x))) fs).
  { induction H as [|x fs (H1 & H2) H IH]; constructor; [apply sort_field_ok; assumption|exact IH]. }
  assert (HC : Forall clean (map (fun x => field_s (fst (fst x)) (snd (fst x)) (snd x)) fs)).
  { clear HG. induction H as [|x fs (H1 & H2) H IH]; cbn [map]; constructor; [apply field_clean; assumption|exact IH]. }
  rewrite (all_str_ok _ _ fs HG). cbn [obind]. set (ss := map _ fs) in *.
  match goal with |- context [alloc ?n] => set (N := n) end.
  assert (HN : N = (length (concat (map (fun x => x ++ [44%Z; 32%Z]) ss)) + 20)%nat) by (rewrite sum2_len; reflexivity). clearbody N.
  destruct (app_ok _ _ _ [83; 111; 114; 116; 91] (alloc_at N)) as (c1 & E1 & H1); [cbn [length]; lia|]. rewrite E1. cbn [obind]. cbn [List.app] in H1.
  destruct (sort_loop_ok ss c1 _ N H1) as (c2 & E2 & H2); [cbn [length]; lia|]. rewrite E2. cbn [obind]. cbv zeta.
  assert (G : at_ (fst c2, if (length fs =? 0)%nat then snd c2 else (snd c2 - 2)%nat) ([83; 111; 114; 116; 91] ++ join [44; 32] ss) N).
  { destruct fs as [|x fs]; [destruct c2; exact H2|]. cbn [length Nat.eqb]. rewrite comma_join, app_assoc in H2 by discriminate. destruct c2 as [m i]. apply rewind in H2. exact H2. }
  assert (LJ : (length (join [44%Z; 32%Z] ss) <= length (concat (map (fun x => x ++ [44%Z; 32%Z]) ss)))%nat).
  { destruct ss as [|x0 ss0]; [cbn; lia|]. rewrite comma_join by discriminate. len. lia. }
  destruct (print_ok _ _ _ [93] G) as (c3 & E3 & H3); [len; lia|]. rewrite E3. cbn [obind]. eexists. split; [reflexivity|].
  rewrite (ended_cstr _ _ _ H3); [rewrite <- app_assoc; reflexivity|]. apply clean_app; [|bytes]. apply clean_app; [bytes|]. apply join_clean; [bytes|exact HC].
Qed.

(* documents *)
Fixpoint quoted (first : bool) (vs : list str) : str :=
  match vs with [] => [] | v :: vs' => (if first then [] else [44; 32]) ++ [34] ++ v ++ [34] ++ quoted false vs' end.
Lemma quoted_join : forall vs, quoted true vs = join [44; 32] (map (fun v => [34] ++ v ++ [34]) vs).
Proof.
  assert (G : forall vs, quoted false vs = match vs with [] => [] | _ => [44; 32] ++ join [44; 32] (map (fun v => [34] ++ v ++ [34]) vs) end).
  { induction vs as [|v vs IH]; [reflexivity|]. cbn [quoted map join]. rewrite IH. destruct vs as [|w vs]; cbn [map]; [rewrite app_nil_r; reflexivity|]. rewrite <- !app_assoc. reflexivity. }
  intros [|v vs]; [reflexivity|]. cbn [quoted map join]. rewrite G. destruct vs as [|w vs]; cbn [map List.app]; [reflexivity|]. rewrite <- !app_assoc. reflexivity.
Qed.
Lemma df_loop_ok : forall vs first c s n, at_ c s n -> (length s + length (quoted first vs) <= n)%nat ->
  exists c', df_loop first vs c = Some c' /\ at_ c' (s ++ quoted first vs) n.
Proof.
  intros vs. induction vs as [|v vs IH]; intros first c s n H L; cbn [df_loop quoted] in *; [exists c; rewrite app_nil_r; auto|].
  match goal with |- context [app c ?l] => destruct (app_ok c s n l H) as (c1 & E1 & H1); [destruct first; len; lia|] end. rewrite E1. cbn [obind].
  destruct (app_ok c1 _ n [34] H1) as (c2 & E2 & H2); [destruct first; len; lia|]. rewrite E2. cbn [obind].
  destruct (app_ok c2 _ n v H2) as (c3 & E3 & H3); [destruct first; len; lia|]. rewrite E3. cbn [obind].
  destruct (app_ok c3 _ n [34] H3) as (c4 & E4 & H4); [destruct first; len; lia|]. rewrite E4. cbn [obind].
  destruct (IH false c4 _ n H4) as (c5 & E5 & H5); [destruct first; len; lia|]. exists c5. split; [exact E5|]. rewrite <- !app_assoc in H5. exact H5.
Qed.
Lemma df_clean : forall name vs, clean name -> Forall clean vs -> clean (df_s name vs).
Proof.
  intros name vs Hn Hv. unfold df_s. apply clean_app; [exact Hn|]. apply clean_app; [bytes|].
  assert (J : clean (join [44; 32] (map (fun v => [34] ++ v ++ [34]) vs))).
  { apply join_clean; [bytes|]. induction Hv as [|v vs Hv HV IH]; cbn [map]; constructor; [apply clean_app; [bytes|]; apply clean_app; [exact Hv|bytes]|exact IH]. }
  destruct (1 <? length vs)%nat; [|exact J]. apply clean_app; [bytes|]. apply clean_app; [exact J|bytes].
Qed.
Lemma df_ok : forall name vs, clean name -> Forall clean vs -> gives (df_to_s name vs) (df_s name vs).
Proof.
  intros name vs Hn Hv. pose proof (df_clean name vs Hn Hv) as C. unfold df_to_s, gives. cbv zeta.
  match goal with |- context [alloc ?n] => set (N := n) end.
  assert (LQ : forall first, (length (quoted first vs) <= fold_right (fun v n => length v + 4 + n)%nat O vs)%nat).
  { clear. induction vs as [|v vs IH]; intros first; cbn [quoted fold_right]; [cbn; lia|]. specialize (IH false). destruct first; len; lia. }
  specialize (LQ true). assert (HN : N = (length name + fold_right (fun v n => length v + 4 + n) O vs + 5)%nat) by reflexivity. clearbody N.
  destruct (app_ok _ _ _ name (alloc_at N)) as (c1 & E1 & H1); [cbn [length]; lia|]. rewrite E1. cbn [obind]. cbn [List.app] in H1.
  destruct (app_ok c1 _ _ [58; 32] H1) as (c2 & E2 & H2); [len; lia|]. rewrite E2. cbn [obind].
  match goal with |- context [app c2 ?l] => destruct (app_ok c2 _ _ l H2) as (c3 & E3 & H3); [destruct (1 <? length vs)%nat; len; lia|] end. rewrite E3. cbn [obind].
  destruct (df_loop_ok vs true c3 _ _ H3) as (c4 & E4 & H4); [destruct (1 <? length vs)%nat; len; lia|]. rewrite E4. cbn [obind].
  match goal with |- context [app c4 ?l] => destruct (app_ok c4 _ _ l H4) as (c5 & E5 & H5); [destruct (1 <? length vs)%nat; len; lia|] end. rewrite E5. cbn [obind].
  destruct (nul_ok c5 _ _ H5) as (c6 & E6 & H6); [destruct (1 <? length vs)%nat; len; lia|]. rewrite E6. cbn [obind]. eexists. split; [reflexivity|].
  match type of H6 with ended _ ?s _ => assert (Es : s = df_s name vs) end.
  { unfold df_s. rewrite <- quoted_join. destruct (1 <? length vs)%nat; rewrite <- !app_assoc; [reflexivity|rewrite app_nil_r; reflexivity]. }
  rewrite Es in H6. eapply ended_cstr; [exact H6|exact C].
Qed.
Lemma doc_loop_ok : forall ss c s n, ended c s n -> (length s + length (concat (map (fun x => [32%Z; 32%Z; 61%Z; 62%Z] ++ x ++ [10%Z]) ss)) < n)%nat ->
  exists c', doc_loop ss c = Some c' /\ ended c' (s ++ concat (map (fun x => [32; 32; 61; 62] ++ x ++ [10]) ss)) n.
Proof.
  intros ss. induction ss as [|t ss IH]; intros c s n H L; cbn [doc_loop map concat] in *; [exists c; rewrite app_nil_r; auto|].
  match goal with |- context [print c ?l] => destruct (print_ok c s n l (ended_at _ _ _ H)) as (c1 & E1 & H1); [len; lia|] end. rewrite E1. cbn [obind].
  destruct (IH c1 _ n H1) as (c2 & E2 & H2); [len; lia|]. exists c2. split; [exact E2|]. rewrite app_assoc. exact H2.
Qed.
Lemma sum5_len : forall (ss : list str) k, (length (concat (map (fun x => [32%Z; 32%Z; 61%Z; 62%Z] ++ x ++ [10%Z]) ss)) + k = fold_right (fun s n => length s + 5 + n)%nat k ss)%nat.
Proof. intros ss k. induction ss as [|t ss IH]; cbn [map concat fold_right length]; [lia|]. rewrite <- IH. len. lia. Qed.
Lemma doc_ok : forall fs, Forall (fun x => clean (fst x) /\ Forall clean (snd x)) fs -> gives (doc_to_s fs) (doc_s fs).
Proof.
  intros fs H. unfold doc_to_s, doc_s, gives.
  assert (HG : Forall (fun x : str * list str => gives (df_to_s (fst x) (snd x)) (df_s (fst x) (snd x))) fs).
  { induction H as [|x fs (H1 & H2) H IH]; constructor; [apply df_ok; assumption|exact IH]. }
  rewrite (all_str_ok _ _ fs HG). cbn [obind]. 
  assert (HC : clean (concat (map (fun x => [32; 32; 61; 62] ++ x ++ [10]) (map (fun x => df_s (fst x) (snd x)) fs)))).
  { clear HG. induction H as [|x fs (H1 & H2) H IH]; cbn [map concat]; [constructor|]. apply clean_app; [|exact IH]. apply clean_app; [bytes|]. apply clean_app; [apply df_clean; assumption|bytes]. }
  rewrite <- (map_map (fun x => df_s (fst x) (snd x)) (fun x => [32; 32; 61; 62] ++ x ++ [10])).
  set (ss := map (fun x => df_s (fst x) (snd x)) fs) in *.
  match goal with |- context [alloc ?n] => set (N := n) end.
  assert (HN : N = (length (concat (map (fun x => [32%Z; 32%Z; 61%Z; 62%Z] ++ x ++ [10%Z]) ss)) + 12)%nat) by (unfold N; rewrite <- (sum5_len ss O), Nat.add_0_r; reflexivity). clearbody N.
  destruct (print_ok _ _ _ s_document (alloc_at N)) as (c1 & E1 & H1); [cbn [length s_document]; lia|]. rewrite E1. cbn [obind]. cbn [List.app] in H1.
  destruct (doc_loop_ok ss c1 _ N H1) as (c2 & E2 & H2); [cbn [length s_document]; lia|]. rewrite E2. cbn [obind]. eexists. split; [reflexivity|].
  eapply ended_cstr; [exact H2|]. apply clean_app; [bytes|exact HC].
Qed.

(* field infos *)
Definition fi_clean (x : finfo) : Prop := clean (fi_name x) /\ clean (fi_boost x) /\ clean (fi_store x) /\ clean (fi_index x) /\ clean (fi_tv x).
Lemma line_clean : forall x, fi_clean x -> clean (fi_line x).
Proof. intros x (H1 & H2 & H3 & H4 & H5). unfold fi_line. repeat (apply clean_app; [try assumption; bytes|]). bytes. Qed.
Lemma fis_loop_ok : forall fs c s n, ended c s n -> (length s + length (concat (map fi_line fs)) < n)%nat ->
  exists c', fis_loop fs c = Some c' /\ ended c' (s ++ concat (map fi_line fs)) n.
Proof.
  intros fs. induction fs as [|x fs IH]; intros c s n H L; cbn [fis_loop map concat] in *; [exists c; rewrite app_nil_r; auto|].
  destruct (print_ok c s n (fi_line x) (ended_at _ _ _ H)) as (c1 & E1 & H1); [len; lia|]. rewrite E1. cbn [obind].
  destruct (IH c1 _ n H1) as (c2 & E2 & H2); [len; lia|]. exists c2. split; [exact E2|]. rewrite app_assoc. exact H2.
Qed.
Lemma fis_loop_inv : forall fs c s n c', ended c s n -> fis_loop fs c = Some c' -> ended c' (s ++ concat (map fi_line fs)) n.
Proof.
  intros fs. induction fs as [|x fs IH]; intros c s n c' H E; cbn [fis_loop map concat] in *; [apply some_inj in E; subst; rewrite app_nil_r; exact H|].
  destruct (print c (fi_line x)) as [c1|] eqn:E1; [|discriminate]. cbn [obind] in E. apply (print_inv _ _ _ _ _ (ended_at _ _ _ H)) in E1. apply (IH _ _ _ _ E1) in E. rewrite <- app_assoc in E. exact E.
Qed.
Lemma fis_ok : forall hd fs, clean hd -> Forall fi_clean fs ->
  if (length hd + length (concat (map fi_line fs)) <? 200 + length fs * 120)%nat then gives (fis_to_s hd fs) (hd ++ concat (map fi_line fs)) else fis_to_s hd fs = None.
Proof.
  intros hd fs Hh HF. destruct (_ <? _)%nat eqn:E.
  - apply Nat.ltb_lt in E. unfold fis_to_s, gives. destruct (print_ok _ _ _ hd (alloc_at (200 + length fs * 120))) as (c1 & E1 & H1); [cbn [length]; lia|]. rewrite E1. cbn [obind]. cbn [List.app] in H1.
    destruct (fis_loop_ok fs c1 _ _ H1) as (c2 & E2 & H2); [lia|]. rewrite E2. cbn [obind]. eexists. split; [reflexivity|]. eapply ended_cstr; [exact H2|]. apply clean_app; [exact Hh|].
    clear - HF. induction HF as [|x fs Hx HF IH]; [constructor|]. cbn [map concat]. apply clean_app; [apply line_clean, Hx|exact IH].
  - apply Nat.ltb_ge in E. destruct (fis_to_s hd fs) as [m|] eqn:G; [|reflexivity]. exfalso. unfold fis_to_s in G.
    destruct (print _ hd) as [c1|] eqn:E1; [|discriminate]. cbn [obind] in G. apply (print_inv _ _ _ _ _ (alloc_at _)) in E1. cbn [List.app] in E1.
    destruct (fis_loop fs c1) as [c2|] eqn:E2; [|discriminate]. apply (fis_loop_inv _ _ _ _ _ E1) in E2. apply ended_len in E2. rewrite app_length in E2. lia.
Qed.
Lemma fis_short : forall hd fs, clean hd -> Forall fi_clean fs -> (length hd < 200)%nat ->
  Forall (fun x => length (fi_name x) + length (fi_boost x) + length (fi_store x) + length (fi_index x) + length (fi_tv x) <= 62)%nat fs -> gives (fis_to_s hd fs) (hd ++ concat (map fi_line fs)).
Proof.
  intros hd fs Hh HF L HL. pose proof (fis_ok hd fs Hh HF) as F. replace (_ <? _)%nat with true in F; [exact F|]. symmetry. apply Nat.ltb_lt.
  assert (length (concat (map fi_line fs)) <= length fs * 120)%nat; [|lia]. clear - HL. induction HL as [|x fs Hx HL IH]; cbn [map concat length]; [lia|]. rewrite app_length.
  assert (length (fi_line x) <= 120)%nat; [|lia]. unfold fi_line. rewrite !app_length. cbn [length s_boost s_store s_index s_tv]. lia.
Qed.
Lemma fis_long : forall hd fs, clean hd -> Forall fi_clean fs -> (exists x, In x fs /\ 120 * length fs + 200 <= length (fi_name x))%nat -> fis_to_s hd fs = None.
Proof.
  intros hd fs Hh HF (x & Hx & L). pose proof (fis_ok hd fs Hh HF) as F. replace (_ <? _)%nat with false in F; [exact F|]. symmetry. apply Nat.ltb_ge.
  assert (length (fi_name x) <= length (concat (map fi_line fs)))%nat; [|lia]. clear - Hx. induction fs as [|y fs IH]; [destruct Hx|]. cbn [map concat]. rewrite app_length. destruct Hx as [->|Hx]; [|specialize (IH Hx); lia].
  assert (length (fi_name x) <= length (fi_line x))%nat; [|lia]. unfold fi_line. rewrite !app_length. lia.
Qed.

(* explanations *)
Lemma cstr_inv : forall m s, cstr m = Some s -> clean s /\ exists r, m = map Some (s ++ [0]) ++ r.
Proof.
  intros m. induction m as [|[c|] m IH]; intros s H; [discriminate| |discriminate]. cbn [cstr] in H. destruct (c =? 0) eqn:E.
  - apply some_inj in H. subst s. apply Z.eqb_eq in E. subst c. split; [constructor|]. exists m. reflexivity.
  - destruct (cstr m) as [s'|] eqn:Es; [|discriminate]. cbn [obind] in H. apply some_inj in H. subst s. destruct (IH s' eq_refl) as (C & r & ->). apply Z.eqb_neq in E. split; [constructor; assumption|]. exists r. reflexivity.
Qed.
Lemma holds_ended : forall m s, cstr m = Some s -> ended (m, length s) s (length m).
Proof. intros m s H. apply cstr_inv in H. destruct H as (_ & r & ->). exists r. auto. Qed.
Lemma cut_ended : forall m s k, cstr m = Some s -> (length s < k)%nat -> at_ (resize k m, length s) s k.
Proof.
  intros m s k H L. apply holds_ended in H. eapply shrink_at; [apply ended_at; exact H|lia].
Qed.
Lemma estrcat_ok : forall m s t, cstr m = Some s -> clean t -> exists m', estrcat m t = Some m' /\ cstr m' = Some (s ++ t).
Proof.
  intros m s t H Ht. unfold estrcat. rewrite H. cbn [obind]. destruct (cstr_inv m s H) as (C & _).
  destruct (print_ok _ _ _ t (cut_ended m s (length s + length t + 3) H ltac:(lia))) as (c & E & HE); [lia|]. rewrite E. cbn [obind]. eexists. split; [reflexivity|].
  eapply ended_cstr; [exact HE|]. apply clean_app; assumption.
Qed.
Lemma gives_clean : forall r s, gives r s -> clean s.
Proof. intros r s (m & _ & E). apply (cstr_inv m s E). Qed.
Definition sub_s (depth : nat) := fix all (l : list expl) (m : block) : option block :=
  match l with
  | [] => Some m
  | e' :: l' => do m' <- expl_to_s (S depth) e'; do s <- cstr m'; do m2 <- estrcat m s; all l' m2
  end.
Fixpoint fine_expls (l : list expl) : Prop := match l with [] => True | c :: l' => fine_expl c /\ fine_expls l' end.
Fixpoint expl_ok (e : expl) : forall depth, fine_expl e -> gives (expl_to_s depth e) (expl_s depth e).
Proof.
  destruct e as [v d ds]. intros depth (Hv & Hd & HD). change (fine_expls ds) in HD.
  assert (G : forall m s, cstr m = Some s -> exists m', sub_s depth ds m = Some m' /\ cstr m' = Some (s ++ concat (map (expl_s (S depth)) ds))).
  { induction ds as [|e ds IH]; intros m s H; [exists m; split; [reflexivity|cbn [map concat]; rewrite app_nil_r; exact H]|]. destruct HD as (He & HD).
    change (sub_s depth (e :: ds) m) with (do m' <- expl_to_s (S depth) e; do s <- cstr m'; do m2 <- estrcat m s; sub_s depth ds m2).
    pose proof (expl_ok e (S depth) He) as GE. pose proof (gives_clean _ _ GE) as CE. destruct GE as (m1 & E1 & E2). rewrite E1. cbn [obind]. rewrite E2. cbn [obind].
    destruct (estrcat_ok m s _ H CE) as (m2 & E3 & E4). rewrite E3. cbn [obind]. destruct (IH HD m2 _ E4) as (m3 & E5 & E6). exists m3. split; [exact E5|]. cbn [map concat]. rewrite app_assoc. exact E6. }
  assert (CB : clean (repeat 32 (depth * 2))) by (clear; induction (depth * 2)%nat; constructor; [discriminate|assumption]).
  change (gives (do c <- print (alloc (depth * 2 + 1), O) (repeat 32 (depth * 2)); do fm <- strfmt [Num v; Lit [32; 61; 32]; Str d; Lit [10]]; do fs <- cstr fm; do m <- estrcat (fst c) fs; sub_s depth ds m) (expl_s depth (Expl v d ds))).
  destruct (print_ok _ _ _ (repeat 32 (depth * 2)) (alloc_at (depth * 2 + 1))) as (c & E & H); [rewrite repeat_length; cbn [length]; lia|]. rewrite E. cbn [obind].
  match goal with |- context [strfmt ?l] => destruct (strfmt_ok l) as (fm & E1 & E2); [constructor; [exact Hv|constructor; [bytes|constructor; [exact Hd|constructor; [bytes|constructor]]]]|] end.
  rewrite E1. cbn [obind]. rewrite E2. cbn [obind]. cbn [List.app] in H. pose proof (ended_cstr _ _ _ H CB) as E3. destruct (cstr_inv _ _ E2) as (C2 & _).
  destruct (estrcat_ok _ _ _ E3 C2) as (m & E4 & E5). rewrite E4. cbn [obind]. destruct (G m _ E5) as (m' & E6 & E7). exists m'. split; [exact E6|]. rewrite E7. f_equal. cbn [expl_s map concat piece_s].
  rewrite app_nil_r, <- !app_assoc. reflexivity.
Qed.
Definition sub_h (moves : nat -> nat -> bool) := fix all (l : list expl) (m : block) : option block :=
  match l with
  | [] => Some m
  | e' :: l' =>
      do m' <- expl_to_html moves e'; do s <- cstr m';
      do m2 <- estrcat m s;
      if moves (length m) (length m2) then None else all l' m2
  end.
Fixpoint html_ok (e : expl) : forall moves, (forall a b, moves a b = false) -> fine_expl e -> gives (expl_to_html moves e) (html_s e).
Proof.
  destruct e as [v d ds]. intros moves HM (Hv & Hd & HD). change (fine_expls ds) in HD.
  assert (G : forall m s, cstr m = Some s -> exists m', sub_h moves ds m = Some m' /\ cstr m' = Some (s ++ concat (map html_s ds))).
  { induction ds as [|e ds IH]; intros m s H; [exists m; split; [reflexivity|cbn [map concat]; rewrite app_nil_r; exact H]|]. destruct HD as (He & HD).
    change (sub_h moves (e :: ds) m) with (do m' <- expl_to_html moves e; do s <- cstr m'; do m2 <- estrcat m s; if moves (length m) (length m2) then None else sub_h moves ds m2).
    pose proof (html_ok e moves HM He) as GE. pose proof (gives_clean _ _ GE) as CE. destruct GE as (m1 & E1 & E2). rewrite E1. cbn [obind]. rewrite E2. cbn [obind].
    destruct (estrcat_ok m s _ H CE) as (m2 & E3 & E4). rewrite E3. cbn [obind]. rewrite HM. destruct (IH HD m2 _ E4) as (m3 & E5 & E6). exists m3. split; [exact E5|]. cbn [map concat]. rewrite app_assoc. exact E6. }
  change (gives (do m <- strfmt [Lit s_ul; Num v; Lit [32; 61; 32]; Str d; Lit s_li]; do m1 <- sub_h moves ds m; do s <- cstr m1; do c <- print (resize (length s + 10) m1, length s) s_end; Some (fst c)) (html_s (Expl v d ds))).
  match goal with |- context [strfmt ?l] => destruct (strfmt_ok l) as (m & E1 & E2); [constructor; [bytes|constructor; [exact Hv|constructor; [bytes|constructor; [exact Hd|constructor; [bytes|constructor]]]]]|] end.
  rewrite E1. cbn [obind]. destruct (G m _ E2) as (m1 & E3 & E4). rewrite E3. cbn [obind]. rewrite E4. cbn [obind]. destruct (cstr_inv _ _ E4) as (C & _). set (s := concat _ ++ concat _) in *.
  destruct (print_ok _ _ _ s_end (cut_ended m1 s (length s + 10) E4 ltac:(lia))) as (c & E & H); [cbn [length s_end]; lia|]. rewrite E. cbn [obind]. eexists. split; [reflexivity|].
  rewrite (ended_cstr _ _ _ H); [|apply clean_app; [exact C|bytes]]. f_equal. unfold s. cbn [html_s map concat piece_s]. rewrite app_nil_r, <- !app_assoc. reflexivity.
Qed.
Lemma html_unsafe : forall moves v d e ds, (forall a b, moves a b = true) -> expl_to_html moves (Expl v d (e :: ds)) = None.
Proof.
  intros moves v d e ds HM.
  change (expl_to_html moves (Expl v d (e :: ds))) with (do m <- strfmt [Lit s_ul; Num v; Lit [32; 61; 32]; Str d; Lit s_li]; do m1 <- (do m' <- expl_to_html moves e; do s <- cstr m'; do m2 <- estrcat m s; if moves (length m) (length m2) then None else sub_h moves ds m2); do s <- cstr m1; do c <- print (resize (length s + 10) m1, length s) s_end; Some (fst c)).
  destruct (strfmt _) as [m|]; [|reflexivity]. cbn [obind]. destruct (expl_to_html moves e) as [m'|]; [|reflexivity]. cbn [obind]. destruct (cstr m') as [s|]; [|reflexivity]. cbn [obind].
  destruct (estrcat m s) as [m2|]; [|reflexivity]. cbn [obind]. rewrite HM. reflexivity.
Qed.
