(* Proofs about the deleter. *)
From Coq Require Import String.
From Verif Require Import Util Codec_Model Codec_Spec Codec_Proofs Seg_Model Seg_Spec Seg_Proofs SegCodec_Proofs Commit_Model Commit_Spec Commit_Proofs.
Open Scope Z_scope.

Lemma before_last_none c s : ~ In c s -> before_last c s = None.
Proof.
  induction s as [|x s IH]; intros H; cbn; auto. rewrite IH by (intro; apply H; right; auto). destruct (Z.eqb_spec x c); auto. subst. exfalso. apply H. left; auto.
Qed.
Lemma before_last_app c a s : ~ In c s -> before_last c (a ++ c :: s) = Some a.
Proof.
  intros H. induction a as [|x a IH]; cbn.
  - rewrite before_last_none by auto. rewrite Z.eqb_refl. reflexivity.
  - rewrite IH. reflexivity.
Qed.
Definition ext_in (k : file_kind) : bool := match k with Plain e | Generation e _ => existsb (beqb e) INDEX_EXTENSIONS | NormFile _ _ _ => true end.
Lemma in_exts e l : In e l -> existsb (beqb e) l = true.
Proof. intros H. apply existsb_exists. exists e. split; auto. apply beqb_refl. Qed.
Lemma digits10 num : 0 <= num < 2 ^ 31 -> exists d ds, str10 num = d :: ds /\ is_digit d = true /\ Forall (fun c => 48 <= c <= 57) ds.
Proof.
  intros H. destruct (str10_ok num H) as (S1 & S2 & _). destruct (str10 num) as [|d ds]; [congruence|]. inversion S1; subst. exists d, ds. repeat split; auto.
  unfold is_digit. cbv beta in *. lia.
Qed.
Lemma atoi_value ds : forall u, Forall (fun c => 48 <= c <= 57) ds -> atoi_from u ds = value 10 u ds.
Proof.
  induction ds as [|c ds IH]; intros u H; auto. inversion H; subst. cbn [atoi_from value]. unfold is_digit. replace ((48 <=? c) && (c <=? 57)) with true by lia.
  rewrite IH by auto. f_equal. unfold dval. destruct (Z.leb_spec c 57); lia.
Qed.
Lemma ext_no_dot k : kind_ok k -> ~ In DOT (ext_part k).
Proof.
  intros Hk Hin. destruct k as [e|e g|sep g num]; cbn [kind_ok ext_part] in *.
  - apply (lower_no_digit e) in Hin; auto. unfold DOT in Hin. lia.
  - apply (lower_no_digit e) in Hin; [|tauto]. unfold DOT in Hin. lia.
  - destruct Hk as [_ Hn]. destruct (str10_ok num Hn) as (S1 & _). apply in_app_iff in Hin. destruct Hin as [Hin|Hin].
    + destruct sep; cbn in Hin; destruct Hin as [Hin|[]]; discriminate.
    + rewrite Forall_forall in S1. apply S1 in Hin. unfold DOT in Hin. lia.
Qed.
(* the part of deleter_find_deletable_files_i after the segment has been found *)
Definition known (si : seg_info) (fn ext : list Z) : option bool :=
  if is_cfs_file fn && si_cfs si then Some true
  else if beqb ext (str "del") then
    match fn_for_generation (si_name si) (str "del") (si_del_gen si) with
    | None => Some true | Some None => None | Some (Some t) => Some (negb (beqb fn t)) end
  else match ext with
       | a :: b :: _ => if ((a =? 115) || (a =? 102)) && is_digit b then
                          match si_norm_file_name si (atoi_from 0 (tl ext)) with Some (Some t) => Some (negb (beqb t fn)) | _ => None end
                        else Some (beqb ext (str "cfs") && negb (si_cfs si))
       | _ => Some (beqb ext (str "cfs") && negb (si_cfs si))
       end.
Lemma deletable_name curr s c k fn seg : 0 <= c < 2 ^ 64 -> kind_ok k -> index_kind k -> file_name c k = Some fn -> new_segment c = Some seg -> fn <> curr ->
  after_last DOT fn = Some (ext_part k) /\
  deletable curr s fn = match find_si seg s with None => Some true | Some si => known si fn (ext_part k) end.
Proof.
  intros Hc Hk Hi E Es Hcur. destruct (file_name_shape c k Hc Hk) as (u & g & U1 & U2 & G & Gd & E1). rewrite E in E1. apply some_inj in E1.
  unfold new_segment in Es. rewrite Z.mod_small, U1 in Es by auto. cbn [obind] in Es. apply some_inj in Es.
  assert (EF : fn = ((US :: u) ++ g) ++ DOT :: ext_part k) by (rewrite E1, <- app_assoc; auto).
  assert (EA : after_last DOT fn = Some (ext_part k)) by (rewrite EF; apply after_last_app, ext_no_dot; auto).
  assert (EB : before_last DOT fn = Some ((US :: u) ++ g)) by (rewrite EF; apply before_last_app, ext_no_dot; auto).
  assert (EX : is_index_file fn = true).
  { unfold is_index_file. rewrite EA. destruct k as [e|e gg|sep gg num]; cbn [ext_part index_kind] in *.
    - rewrite in_exts; auto.
    - rewrite in_exts; auto.
    - destruct Hk as [_ Hn]. destruct (digits10 num Hn) as (d & ds & -> & Hd & _). destruct sep; cbn [app str]; rewrite Hd; cbn; apply orb_true_r. }
  split; auto. unfold deletable. rewrite EX, EA, EB. rewrite beqb_false by auto.
  rewrite (beqb_false fn GEN_FILE) by (rewrite EF; discriminate). cbn [andb negb].
  replace (strip_generation ((US :: u) ++ g)) with seg; [reflexivity|]. subst seg. cbn [app strip_generation].
  destruct k as [e|e gg|sep gg num]; cbn [gen_part] in G; [subst g; rewrite app_nil_r, before_last_none; auto using b36_no, us_not_b36| |].
  - destruct G as (v & V1 & ->). destruct Hk as [_ Hg]. destruct (to36 _ gg size100 ltac:(lia)) as (v' & R1 & R2 & _). rewrite V1 in R1. apply some_inj in R1. subst v'.
    rewrite before_last_app; auto using b36_no, us_not_b36.
  - destruct G as (v & V1 & ->). destruct Hk as [Hg _]. destruct (to36 _ gg size100 ltac:(lia)) as (v' & R1 & R2 & _). rewrite V1 in R1. apply some_inj in R1. subst v'.
    rewrite before_last_app; auto using b36_no, us_not_b36.
Qed.
Lemma find_si_in s si : NoDup (map si_name s) -> In si s -> find_si (si_name si) s = Some si.
Proof.
  intros ND Hin. unfold find_si. assert (ND' : NoDup (map si_name (rev s))) by (rewrite map_rev; apply NoDup_rev; auto).
  apply in_rev in Hin. revert ND' Hin. generalize (rev s) as l. induction l as [|x l IH]; intros ND' Hin; [contradiction|]. cbn [map] in ND'. inversion ND'; subst. cbn [find].
  destruct (beqb_dec (si_name x) (si_name si)) as [[Eq He]|[Eq He]]; rewrite Eq.
  - destruct Hin as [->|Hin]; auto. exfalso. apply H1. rewrite He. apply in_map. auto.
  - apply IH; auto. destruct Hin as [->|Hin]; auto. contradiction.
Qed.
Lemma find_si_none s n : ~ In n (map si_name s) -> find_si n s = None.
Proof.
  intros H. unfold find_si. destruct (find _ (rev s)) as [x|] eqn:E; auto. apply find_some in E. destruct E as [E1 E2]. apply beqb_eq in E2. exfalso. apply H. rewrite <- E2. apply in_map, in_rev. auto.
Qed.
Lemma cfs_name fn k : after_last DOT fn = Some (ext_part k) -> is_cfs_file fn =
  (existsb (beqb (ext_part k)) INDEX_EXTENSIONS && negb (beqb (ext_part k) (str "del")) && negb (beqb (ext_part k) (str "gen")) && negb (beqb (ext_part k) (str "cfs"))) ||
  match ext_part k with a :: b :: _ => (a =? 102) && is_digit b | _ => false end.
Proof. intros E. unfold is_cfs_file. rewrite E. auto. Qed.
Lemma norm_ext sep num : 0 <= num < 2 ^ 31 -> exists d ds, (if sep : bool then str "s" else str "f") ++ str10 num = (if sep then 115 else 102) :: d :: ds /\ is_digit d = true /\
  atoi_from 0 (d :: ds) = num /\ forall e, In e INDEX_EXTENSIONS -> e <> (if sep then 115 else 102) :: d :: ds.
Proof.
  intros Hn. destruct (digits10 num Hn) as (d & ds & Ed & Hd & Hds). exists d, ds. rewrite Ed. split; [destruct sep; auto|]. split; auto. split.
  - rewrite atoi_value, <- Ed; [apply str10_ok; auto|]. constructor; auto. unfold is_digit in Hd. lia.
  - intros e He Heq. subst e. destruct sep; cbn in He; repeat (destruct He as [He|He]; [injection He; intros; subst; discriminate|]); contradiction.
Qed.
Lemma exts_false x : (forall e, In e INDEX_EXTENSIONS -> e <> x) -> existsb (beqb x) INDEX_EXTENSIONS = false.
Proof. intros H. destruct (existsb _ _) eqn:E; auto. apply existsb_exists in E. destruct E as (e & E1 & E2). apply beqb_eq in E2. exfalso. apply (H e); auto. Qed.
Lemma known_norm si fn sep g num seg c : 0 <= c < 2 ^ 64 -> kind_ok (NormFile sep g num) -> file_name c (NormFile sep g num) = Some fn -> new_segment c = Some seg ->
  si_name si = seg -> after_last DOT fn = Some (ext_part (NormFile sep g num)) ->
  forall g', nth_error (si_norm_gens si) (Z.to_nat num) = Some g' -> 0 <= g' < 2 ^ 31 ->
  known si fn (ext_part (NormFile sep g num)) =
    Some (if (negb sep && si_cfs si) then true else negb ((g =? g') && Bool.eqb sep (si_cfs si && (g' >? 0)))).
Proof.
  intros Hc Hk E Es Hn EA g' N Hg'. unfold known. rewrite (cfs_name fn (NormFile sep g num) EA). cbn [ext_part].
  destruct Hk as [Hg Hnum]. destruct (norm_ext sep num Hnum) as (d & ds & -> & Hd & Hv & Hx). rewrite exts_false by auto. cbn [andb orb].
  rewrite Hd, andb_true_r. replace ((if sep then 115 else 102) =? 102) with (negb sep) by (destruct sep; auto).
  destruct (negb sep && si_cfs si) eqn:E1; auto. rewrite (beqb_false _ (str "del")) by (intros He; apply (Hx (str "del")); auto; cbn; tauto).
  rewrite andb_true_r. replace (((if sep then 115 else 102) =? 115) || negb sep) with true by (destruct sep; auto).
  cbn [tl]. rewrite Hv. unfold si_norm_file_name. rewrite N. replace (g' <? 0) with false by lia.
  destruct (fn_for_gen_field (si_name si) (if si_cfs si && (g' >? 0) then str "s" else str "f") g' num) as [t|] eqn:Et.
  2:{ exfalso. unfold fn_for_gen_field in Et. destruct (to36 _ (g' mod 2 ^ 64) size100 ltac:(apply Z.mod_pos_bound; lia)) as (v & R1 & _). rewrite R1 in Et. discriminate. }
  assert (Ef : file_name c (NormFile (si_cfs si && (g' >? 0)) g' num) = Some t) by (unfold file_name; rewrite Es; cbn [obind]; rewrite <- Hn; auto).
  f_equal. f_equal. destruct (beqb_dec t fn) as [[B ->]|[B H]]; rewrite B.
  - rewrite <- E in Ef. apply names_injective in Ef; auto; [|cbn; lia|cbn; lia]. destruct Ef as [_ Ef]. injection Ef as -> ->. rewrite Z.eqb_refl, Bool.eqb_reflx. auto.
  - destruct (Z.eqb_spec g g') as [->|]; auto. destruct (Bool.eqb sep _) eqn:Eb; auto. apply Bool.eqb_prop in Eb. subst sep. rewrite E in Ef. apply some_inj in Ef. subst. contradiction.
Qed.
Lemma known_del si fn k seg c : 0 <= c < 2 ^ 64 -> kind_ok k -> ext_part k = str "del" -> (match k with NormFile _ _ _ => False | _ => True end) ->
  file_name c k = Some fn -> new_segment c = Some seg -> si_name si = seg -> after_last DOT fn = Some (ext_part k) -> -1 <= si_del_gen si < 2 ^ 31 ->
  known si fn (ext_part k) = Some (match k with Generation _ g => negb (g =? si_del_gen si) | _ => true end).
Proof.
  intros Hc Hk Hx Hnn E Es Hn EA Hd. unfold known. rewrite (cfs_name fn k EA), Hx. replace (existsb (beqb (str "del")) INDEX_EXTENSIONS && negb (beqb (str "del") (str "del")) && negb (beqb (str "del") (str "gen")) && negb (beqb (str "del") (str "cfs")) || (match str "del" with a :: b :: _ => (a =? 102) && is_digit b | _ => false end)) with false by reflexivity.
  cbn [andb]. rewrite beqb_refl. unfold fn_for_generation. destruct (Z.eqb_spec (si_del_gen si) (-1)) as [Ed|Ed].
  { rewrite Ed. destruct k as [e|e g|]; auto. cbn [kind_ok] in Hk. destruct (Z.eqb_spec g (-1)); auto. lia. }
  rewrite Z.mod_small by lia. destruct (to36 _ (si_del_gen si) size100 ltac:(lia)) as (v & R1 & R2 & _). rewrite R1. cbn [obind].
  assert (Ef : file_name c (Generation (str "del") (si_del_gen si)) = Some (si_name si ++ [US] ++ v ++ [DOT] ++ str "del")).
  { unfold file_name. rewrite Es. cbn [obind]. unfold fn_for_generation. destruct (Z.eqb_spec (si_del_gen si) (-1)); [lia|]. rewrite Z.mod_small, R1 by lia. cbn [obind]. rewrite Hn. auto. }
  assert (Hl : Forall lower (str "del")) by (cbn; do 3 (apply Forall_cons; [unfold lower; lia|]); apply Forall_nil).
  f_equal. destruct (beqb_dec fn (si_name si ++ [US] ++ v ++ [DOT] ++ str "del")) as [[B H]|[B H]]; rewrite B.
  - rewrite <- H, <- E in Ef. apply names_injective in Ef; auto; [|cbn; split; auto; lia]. destruct Ef as [_ <-]. rewrite Z.eqb_refl. auto.
  - destruct k as [e|e g|]; auto. cbn [ext_part] in Hx. subst e. destruct (Z.eqb_spec g (si_del_gen si)) as [->|]; auto. rewrite E in Ef. apply some_inj in Ef. contradiction.
Qed.
Lemma known_plain si fn e k : (k = Plain e \/ exists g, k = Generation e g) -> after_last DOT fn = Some (ext_part k) -> In e COMPOUND_EXTENSIONS \/ e = str "cfs" ->
  known si fn (ext_part k) = Some (if beqb e (str "cfs") then negb (si_cfs si) else si_cfs si).
Proof.
  intros Hk EA He. unfold known. rewrite (cfs_name fn k EA). replace (ext_part k) with e by (destruct Hk as [->|(g & ->)]; auto).
  cbn in He. destruct He as [He| ->]; [|destruct (si_cfs si); reflexivity].
  repeat (destruct He as [<-|He]; [destruct (si_cfs si); reflexivity|]). contradiction.
Qed.
Lemma kept_files curr s fn : segs_ok s -> sis_ok s -> commit_file s fn -> ~ data_file curr -> deletable curr (sis_segs s) fn = Some false.
Proof.
  intros [ND _] Hok HF Hcur. assert (Hd := commit_file_data s fn HF). destruct HF as (c & k & si & Hc & Hk & E & Hin & Es & Hf).
  assert (Hsi : si_ok si) by (destruct Hok as (_ & _ & _ & _ & HF & _); rewrite Forall_forall in HF; auto). destruct Hsi as (_ & _ & Hdg & _ & Hng).
  assert (Hi : index_kind k).
  { destruct k as [e|e g|]; cbn in *; auto; [destruct (si_cfs si); [subst; tauto|tauto]|]. destruct Hf as [-> _]. tauto. }
  destruct (deletable_name curr (sis_segs s) c k fn (si_name si) Hc Hk Hi E Es ltac:(intros ->; auto)) as [EA ->]. rewrite find_si_in by auto.
  destruct k as [e|e g|sep g num]; cbn [has_file] in Hf.
  - rewrite (known_plain si fn e); auto; [|destruct (si_cfs si); auto]. destruct (si_cfs si); [subst; reflexivity|]. cbn in Hf. repeat (destruct Hf as [<-|Hf]; [reflexivity|]); contradiction.
  - destruct Hf as (-> & -> & Hg). rewrite (known_del si fn _ (si_name si) c); auto; [|unfold i32 in Hdg; lia]. rewrite Z.eqb_refl. auto.
  - destruct Hf as (N & Hnum & Hg & Hsep & Hpos). assert (Hg' : i32 g) by (rewrite Forall_forall in Hng; apply Hng; eapply nth_error_In; eauto).
    rewrite (known_norm si fn sep g num (si_name si) c) with (g' := g); auto; [|unfold i32 in Hg'; lia]. rewrite Z.eqb_refl. subst sep.
    destruct (si_cfs si); cbn; auto. specialize (Hpos eq_refl). replace (g >? 0) with true by lia. auto.
Qed.
Lemma dropped_files curr s c k fn seg : 0 <= c < 2 ^ 64 -> kind_ok k -> index_kind k -> file_name c k = Some fn -> new_segment c = Some seg ->
  ~ In seg (map si_name (sis_segs s)) -> ~ data_file curr -> deletable curr (sis_segs s) fn = Some true.
Proof.
  intros Hc Hk Hi E Es Hn Hcur. assert (fn <> curr).
  { intros ->. apply Hcur. destruct (file_name_shape c k Hc Hk) as (u & gp & _ & _ & _ & _ & E1). rewrite E in E1. apply some_inj in E1. rewrite E1. unfold data_file, prefixb. apply beqb_false. cbn. discriminate. }
  destruct (deletable_name curr (sis_segs s) c k fn seg Hc Hk Hi E Es H) as [_ ->]. rewrite find_si_none by auto. auto.
Qed.
Lemma outdated_files curr s c k fn si : 0 <= c < 2 ^ 64 -> kind_ok k -> file_name c k = Some fn -> new_segment c = Some (si_name si) -> segs_ok s -> sis_ok s ->
  -1 <= si_del_gen si -> In si (sis_segs s) -> stale_file si k -> ~ data_file curr -> deletable curr (sis_segs s) fn = Some true.
Proof.
  intros Hc Hk E Es [ND _] Hok Hdel Hin Hf Hcur.
  assert (Hsi : si_ok si) by (destruct Hok as (_ & _ & _ & _ & HF & _); rewrite Forall_forall in HF; auto). destruct Hsi as (_ & _ & Hdg & _ & Hng).
  assert (fn <> curr).
  { intros ->. apply Hcur. destruct (file_name_shape c k Hc Hk) as (u & gp & _ & _ & _ & _ & E1). rewrite E in E1. apply some_inj in E1. rewrite E1. unfold data_file, prefixb. apply beqb_false. cbn. discriminate. }
  assert (Hi : index_kind k).
  { destruct k as [e|e g|]; cbn in *; auto; [destruct (si_cfs si); [tauto|subst; tauto]|]. destruct Hf as [-> _]. tauto. }
  destruct (deletable_name curr (sis_segs s) c k fn (si_name si) Hc Hk Hi E Es H) as [EA ->]. rewrite find_si_in by auto.
  destruct k as [e|e g|sep g num]; cbn [stale_file] in Hf.
  - rewrite (known_plain si fn e); auto; [|destruct (si_cfs si); auto]. destruct (si_cfs si); [|subst; reflexivity]. cbn in Hf. repeat (destruct Hf as [<-|Hf]; [reflexivity|]); contradiction.
  - destruct Hf as (-> & Hg). rewrite (known_del si fn _ (si_name si) c); auto; [|unfold i32 in Hdg; lia]. destruct (Z.eqb_spec g (si_del_gen si)); [contradiction|auto].
  - destruct Hf as (g' & N & Hg' & Hne). rewrite (known_norm si fn sep g num (si_name si) c) with (g' := g'); auto. f_equal.
    destruct (negb sep && si_cfs si); auto. destruct (Z.eqb_spec g g'); auto. destruct Hne as [Hne|Hne]; [contradiction|].
    destruct (Bool.eqb sep _) eqn:Eb; auto. apply Bool.eqb_prop in Eb. contradiction.
Qed.
Lemma old_descriptors curr s g fn : 0 <= g < 2 ^ 63 -> segs_ok s -> segfn_for_generation g = Some fn -> fn <> curr -> deletable curr (sis_segs s) fn = Some true.
Proof.
  intros Hg [_ HS] E Hne. destruct (segfn_some g Hg) as (u & E1 & U1 & U2 & U3). rewrite E in E1. apply some_inj in E1.
  assert (Hnd : ~ In DOT fn).
  { rewrite E1. intros Hin. apply in_app_iff in Hin. destruct Hin as [Hin|Hin]; [cbn in Hin; repeat (destruct Hin as [Hin|Hin]; [discriminate|]); contradiction|].
    apply (b36_no u DOT U1 dot_not_b36 Hin). }
  unfold deletable, is_index_file. rewrite after_last_none, before_last_none by auto.
  replace (prefixb (str "segments") fn) with true.
  2:{ symmetry. rewrite E1. unfold prefixb. apply beqb_eq. reflexivity. }
  rewrite beqb_false by auto. rewrite beqb_false by (apply (segfn_not_genfile g); auto). cbn [andb negb].
  replace (strip_generation fn) with (str "segments").
  2:{ rewrite E1. change (str "segments_" ++ u) with (115 :: (str "egments" ++ US :: u)). unfold strip_generation. rewrite before_last_app; auto using b36_no, us_not_b36. }
  rewrite find_si_none; auto. intros Hin. apply in_map_iff in Hin. destruct Hin as (si & S1 & S2). rewrite Forall_forall in HS. destruct (HS si S2) as (c & Hc & Ec).
  unfold new_segment in Ec. destruct (u64_to_str36 _ _) as [v|]; [|discriminate]. cbn [obind] in Ec. apply some_inj in Ec. rewrite <- Ec in S1. discriminate.
Qed.
(* cleaning the whole directory *)
Lemma deletable_files_in curr segs l r fn : deletable_files curr segs l = Some r -> In fn r -> In fn l /\ deletable curr segs fn = Some true.
Proof.
  revert r. induction l as [|a l IH]; intros r E Hin; cbn in E; [apply some_inj in E; subst; contradiction|].
  destruct (deletable curr segs a) as [b|] eqn:Ea; [|discriminate]. cbn [obind] in E. destruct (deletable_files curr segs l) as [r'|] eqn:Er; [|discriminate]. cbn [obind] in E.
  apply some_inj in E. destruct b; subst r.
  - destruct Hin as [->|Hin]; [split; auto; left; auto|]. destruct (IH r' eq_refl Hin). split; auto. right; auto.
  - destruct (IH r' eq_refl Hin). split; auto. right; auto.
Qed.
Lemma deletable_files_all curr segs l r fn : deletable_files curr segs l = Some r -> In fn l -> deletable curr segs fn = Some true -> In fn r.
Proof.
  revert r. induction l as [|a l IH]; intros r E Hin D; [contradiction|]. cbn in E.
  destruct (deletable curr segs a) as [b|] eqn:Ea; [|discriminate]. cbn [obind] in E. destruct (deletable_files curr segs l) as [r'|] eqn:Er; [|discriminate]. cbn [obind] in E.
  apply some_inj in E. destruct Hin as [->|Hin].
  - rewrite D in Ea. apply some_inj in Ea. subst b r. left; auto.
  - specialize (IH r' eq_refl Hin D). destruct b; subst r; auto. right; auto.
Qed.
Lemma lookup_removes l : forall d m, lookup m (apply_ops d (map Remove l)) = if existsb (fun n => beqb n m) l then None else lookup m d.
Proof.
  induction l as [|a l IH]; intros d m; cbn [map apply_ops fold_left existsb]; auto. change (fold_left apply_op (map Remove l) (apply_op d (Remove a))) with (apply_ops (remove a d) (map Remove l)).
  rewrite IH, lookup_remove. destruct (beqb a m); cbn [orb]; auto. destruct (existsb _ l); auto.
Qed.
Lemma clean_directory d g s d' : committed d g s -> segs_ok s -> delete_deletable d s = Some d' ->
  committed d' g s /\ (forall fn, commit_file s fn -> lookup fn d' = lookup fn d) /\
  forall fn, lookup fn d' <> None -> deletable (match segfn_for_generation g with Some f => f | None => [] end) (sis_segs s) fn <> Some true.
Proof.
  intros HC HS E. pose proof HC as (Hg & Hok & Ec & fn & bs & rest & E1 & E2 & E3). unfold delete_deletable in E. rewrite Ec, E1 in E. cbn [obind] in E.
  destruct (deletable_files fn (sis_segs s) (names d)) as [l|] eqn:El; [|discriminate]. cbn [obind] in E. apply some_inj in E. subst d'.
  assert (Hnd : ~ data_file fn) by (intros H; apply gen_data in H; rewrite (gen_segfn g fn) in H by (auto; lia); lia).
  assert (Hkeep : forall m, deletable fn (sis_segs s) m <> Some true -> lookup m (apply_ops d (map Remove l)) = lookup m d).
  { intros m Hm. rewrite lookup_removes. destruct (existsb _ l) eqn:Ex; auto. apply existsb_exists in Ex. destruct Ex as (n & N1 & N2). apply beqb_eq in N2. subst n.
    apply (deletable_files_in _ _ _ _ _ El) in N1. tauto. }
  assert (Hfn : deletable fn (sis_segs s) fn = Some false) by (unfold deletable; rewrite beqb_refl; cbn [negb]; rewrite andb_false_r; auto).
  assert (Hl : lookup fn (apply_ops d (map Remove l)) = Some (bs ++ rest)) by (rewrite Hkeep; auto; rewrite Hfn; discriminate).
  split; [|split].
  - split; [auto|]. split; [auto|]. split; [|exists fn, bs, rest; auto]. apply cg_is; [lia| |].
    + intros n Hn. rewrite <- Ec. apply cg_ge. apply in_names. apply in_names in Hn. rewrite lookup_removes in Hn. destruct (existsb _ l); [congruence|auto].
    + exists fn. split; [apply in_names; rewrite Hl; discriminate|apply gen_segfn; auto; lia].
  - intros m Hm. apply Hkeep. rewrite (kept_files fn s m); auto. discriminate.
  - intros m Hm D. rewrite E1 in D. apply Hm. rewrite lookup_removes. destruct (lookup m d) eqn:Lm; [|destruct (existsb _ l); auto].
    assert (Hin : In m l) by (apply (deletable_files_all _ _ _ _ _ El); auto; apply in_names; rewrite Lm; discriminate).
    replace (existsb (fun n => beqb n m) l) with true; auto. symmetry. apply existsb_exists. exists m. split; auto. apply beqb_refl.
Qed.
(* who is not referenced *)
Lemma unreferenced s c k fn : 0 <= c < 2 ^ 64 -> kind_ok k -> file_name c k = Some fn ->
  (forall si, In si (sis_segs s) -> new_segment c = Some (si_name si) -> ~ has_file si k) -> data_file fn /\ ~ commit_file s fn.
Proof.
  intros Hc Hk E H. split.
  - destruct (file_name_shape c k Hc Hk) as (u & gp & _ & _ & _ & _ & E1). rewrite E in E1. apply some_inj in E1. rewrite E1. unfold data_file, prefixb. apply beqb_false. cbn. discriminate.
  - intros (c' & k' & si & Hc' & Hk' & E' & Hin & Es & Hf). rewrite <- E in E'. apply names_injective in E'; auto. destruct E' as [-> ->]. apply (H si Hin Es Hf).
Qed.
Lemma new_segment_inj c c' n : 0 <= c < 2 ^ 64 -> 0 <= c' < 2 ^ 64 -> new_segment c = Some n -> new_segment c' = Some n -> c = c'.
Proof.
  intros Hc Hc' E E'. unfold new_segment in *. rewrite Z.mod_small in E, E' by auto. destruct (u64_to_str36 _ c) as [u|] eqn:E1; [|discriminate]. destruct (u64_to_str36 _ c') as [u'|] eqn:E2; [|discriminate].
  cbn [obind] in *. apply some_inj in E, E'. rewrite <- E in E'. injection E' as ->. exact (to36_inj _ _ _ _ _ size99 size99 Hc Hc' E1 E2).
Qed.
Lemma fresh_unreferenced s c k fn : counter_ok s -> sis_counter s <= c < 2 ^ 64 -> kind_ok k -> 0 <= sis_counter s -> file_name c k = Some fn -> data_file fn /\ ~ commit_file s fn.
Proof.
  intros HC Hc Hk H0 E. apply (unreferenced s c k); auto; [lia|]. intros si Hin Es _. unfold counter_ok in HC. rewrite Forall_forall in HC. destruct (HC si Hin) as (c' & Hc' & E').
  pose proof (new_segment_inj c c' _ ltac:(lia) ltac:(lia) Es E'). lia.
Qed.
