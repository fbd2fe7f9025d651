(* C24: adding readers to a writer. *)
From Verif Require Import Util Codec_Model Strcmp Codec_Spec Seg_Model Seg_Spec Dict_Model Dict_Spec Token_Model Post_Model Post_Spec PostRun_Proofs Merge_Model Merge_Spec Mte_Spec Fields_Model Fields_Spec Fields_Properties Invert_Model Invert_Spec Invert_Properties InvertTop_Proofs Iw_Model Iw_Spec IwRun_Proofs Iw_Properties Addr_Model Addr_Spec Addr_Proofs.
Open Scope Z_scope.

(* After any history of the writer and any histories of the sources, if no segment of the sources has deletions (see C24_deleted_refuted), their
   files are less than 2^31 bytes, and fields of the same name are the same: the readers are added, all is one segment, and it holds the
   documents of the writer's log followed by those of the sources, in their order, whatever numbers the fields had: every enumerator of terms,
   every stored document and term vector and all norms are theirs.  C is free to call is_read_u32 before is_read_u64 in the sum that finds the
   term vectors; that it does not is supposed here (see C24_order_refuted). *)
Theorem C24_added_partial : forall ana norm zip unzip fuel cfg buf0 h s hs ss, let rs := map rd ss in
  let F := fold_left join (map fst (segments_of rs)) (h_fis h) in
  let docs := added (snd h) ++ flat_map (fun h => added (snd h)) hs in
  config_ok cfg buf0 (length docs) -> codec zip unzip -> h_ok ana zip cfg h -> Forall (h_ok ana zip cfg) hs -> log_fits ana (c_field_length cfg) zip (c_interval cfg) F docs ->
  h_run ana norm zip fuel cfg buf0 h = Some s -> Forall2 (fun h s => h_run ana norm zip fuel cfg buf0 h = Some s) hs ss ->
  Forall (fun x => i_del (w_in (snd x)) = None /\ small_files (snd x)) (segments_of rs) -> agree_all (h_fis h) (map fst (segments_of rs)) ->
  exists s', iw_add_readers true cfg buf0 rs s = Some s' /\ y_fis s' = F /\ (length (y_segs s') <= 1)%nat /\ Forall (fun x => i_del (w_in x) = None) (y_segs s') /\
    shows ana norm unzip fuel (c_field_length cfg) F (c_skip cfg) (y_segs s') (log ana (c_field_length cfg) (h_fis h) (snd h) ++ flat_map (h_docs ana cfg) hs).
Proof. exact add_readers_ok. Qed.
Print Assumptions C24_added_partial.

(* examples: another index with the same fields i and t under other numbers and a field x with norms and term vectors *)
Definition sfis : field_infos := mkFis 1 2 0 [mkFi [120] 1065353216 (1 + 4 + 8 + 32 + 64 + 128); mkFi [116] 1065353216 (4 + 8); mkFi [105] 1065353216 (1 + 4 + 16)].
Definition sdoc (k text x : list Z) : document := mkDoc 1065353216 [mkDfd [105] 1065353216 [k]; mkDfd [116] 1065353216 [text]; mkDfd [120] 1065353216 [x]].
Definition srun (m : nat) (os : list wop) : option iw := iw_run ana1 norm1 zip1 1 wcfg wbuf (iw_open sfis [] m) os.
Definition sops : list wop := [WAdd (sdoc [7] [97; 98] [97; 120; 97]) false; WAdd (sdoc [8] [98] [100; 101]) false; WCommit].
(* the keys and the x stored, norms of t and x, the term vectors *)
Definition sdump (s : iw) :=
  map (fun x => (i_max (w_in x), map (fr_get_doc unzip1 1 (y_fis s) (w_fdt x) (w_fdx x)) (filter (fun j => negb (dels (w_in x) (Z.of_nat j))) (seq 0 (i_max (w_in x)))), norm_file 1 x, norm_file 2 x)) (y_segs s).
Definition stvs (s : iw) := map (fun x => map (fun j => match fr_get_field_tv (y_fis s) (w_fdt x) (w_fdx x) j 2 with Some (Some v) => map (fun t => fst (fst t)) (v_terms v) | _ => [] end) (seq 0 (i_max (w_in x)))) (y_segs s).
Definition adds (ltr : bool) (a b : option iw) : option iw := match a, b with Some s, Some s' => iw_add_readers ltr wcfg wbuf [(y_fis s', y_segs s')] s | _, _ => None end.
Example c24_ex : match adds true (wrun 2 wops) (srun 3 sops) with
  | Some s => map fi_name (fis_fields (y_fis s)) = [[105]; [116]; [120]] /\
      sdump s = [(4%nat, [wk [2]; wk [4]; Some [([105], [[7]]); ([120], [[97; 120; 97]])]; Some [([105], [[8]]); ([120], [[100; 101]])]], Some [1; 1; 2; 1], Some [0; 0; 3; 2])] /\
      stvs s = [[[]; []; [[97]; [120]]; [[100]; [101]]]]
  | None => False end.
Proof. vm_compute. splits; reflexivity. Qed.

(* the hypotheses can be met: the fields i and t in the other order in the source *)
Definition tfis : field_infos := mkFis 1 2 0 [mkFi [116] 1065353216 (4 + 8); mkFi [105] 1065353216 (1 + 4 + 16)].
Definition tops : list wop := [WAdd (wdoc [3] [97; 99]) false; WAdd (wdoc [1] [98]) false; WCommit].
Definition trun (m : nat) (os : list wop) : option iw := iw_run ana1 norm1 zip1 1 wcfg wbuf (iw_open tfis [] m) os.
Lemma c24_fits fis : fis = wfis \/ fis = tfis -> forall ds, Forall (fun d => exists k t, d = wdoc k t /\ (k = [1] \/ k = [2] \/ k = [3] \/ k = [4]) /\ (t = [97; 98] \/ t = [98] \/ t = [97; 99] \/ t = [99])) ds ->
  Forall (fun d => doc_good ana1 10 fis d /\ short_terms ana1 10 2 fis d /\ small_zip zip1 fis d /\ doc_fits (d, vectors ana1 10 fis d)) ds.
Proof.
  intros Hf ds. apply Forall_impl. intros d (k & t & -> & Hk & Ht). splits.
  - unfold doc_good. split; [unfold names_differ; repeat constructor; cbn; intuition congruence|]. cbn [d_fields wdoc].
    destruct Hf as [-> | ->]; repeat (apply Forall_cons; [intros n f E Hi; vm_compute in E; apply some_inj in E; injection E as <- <-|]); try apply Forall_nil.
    all: destruct Hk as [->|[->|[->| ->]]]; destruct Ht as [->|[->|[->| ->]]]; unfold occs_ok; (split; [|discriminate]).
    all: match goal with |- Forall ?P ?l => let l' := eval vm_compute in l in change (Forall P l') end.
    all: repeat (apply Forall_cons; [split; [split; [vm_compute; repeat constructor; lia|vm_compute; repeat constructor; try congruence; lia]|vm_compute; split; congruence]|]); apply Forall_nil.
  - intros n. apply Forall_forall. intros o Ho. apply Nat.leb_le. revert o Ho. apply (proj1 (forallb_forall _ _)). destruct Hf as [-> | ->]; destruct n as [|[|n]]; destruct Hk as [->|[->|[->| ->]]]; destruct Ht as [->|[->|[->| ->]]]; vm_compute; reflexivity.
  - unfold small_zip. cbn [d_fields wdoc]. destruct Hf as [-> | ->]; repeat (apply Forall_cons; [intros _ E; vm_compute in E; discriminate|]); apply Forall_nil.
  - destruct Hf as [-> | ->]; destruct Hk as [->|[->|[->| ->]]]; destruct Ht as [->|[->|[->| ->]]]; vm_compute; reflexivity.
Qed.
Definition th : field_infos * nat * list wop := (wfis, 2%nat, wops).
Definition ths : field_infos * nat * list wop := (tfis, 3%nat, tops).
Example c24_ex2 : match trun 3 tops with
  | Some s => let rs := map rd [s] in
      config_ok wcfg wbuf 6 /\ h_ok ana1 zip1 wcfg th /\ h_ok ana1 zip1 wcfg ths /\
      fold_left join (map fst (segments_of rs)) (h_fis th) = wfis /\ log_fits ana1 10 zip1 2 wfis (added wops ++ added tops) /\
      Forall (fun x => i_del (w_in (snd x)) = None /\ small_files (snd x)) (segments_of rs) /\ agree_all (h_fis th) (map fst (segments_of rs))
  | None => False end.
Proof.
  assert (W : Forall (fun d => exists k t, d = wdoc k t /\ (k = [1] \/ k = [2] \/ k = [3] \/ k = [4]) /\ (t = [97; 98] \/ t = [98] \/ t = [97; 99] \/ t = [99])) (added wops)).
  { change (added wops) with [wdoc [1] [97; 98]; wdoc [2] [98]; wdoc [3] [97; 99]; wdoc [4] [99]]. repeat (apply Forall_cons; [eexists _, _; split; [reflexivity|]; auto|]). apply Forall_nil. }
  assert (T : Forall (fun d => exists k t, d = wdoc k t /\ (k = [1] \/ k = [2] \/ k = [3] \/ k = [4]) /\ (t = [97; 98] \/ t = [98] \/ t = [97; 99] \/ t = [99])) (added tops)).
  { change (added tops) with [wdoc [3] [97; 99]; wdoc [1] [98]]. repeat (apply Forall_cons; [eexists _, _; split; [reflexivity|]; auto|]). apply Forall_nil. }
  destruct (trun 3 tops) as [s|] eqn:E; [|vm_compute in E; discriminate E]. cbv zeta.
  assert (G : match trun 3 tops with Some s => (forallb (fun x => match i_del (w_in (snd x)) with None => true | Some _ => false end &&
     (let g := i_seg (w_in (snd x)) in forallb (fun f : list Z => Z.of_nat (length f) <? 2 ^ 31) ([g_frq g; g_prx g; f_tis (g_dict g); f_tix (g_dict g); f_tfx (g_dict g); w_fdt (snd x); w_fdx (snd x)] ++ map snd (w_norms (snd x)))))
       (segments_of (map rd [s])), map fst (segments_of (map rd [s]))) | None => (false, []) end = (true, [tfis])) by (vm_compute; reflexivity).
  rewrite E in G. apply pair_equal_spec in G. destruct G as [G1 G2]. cbv zeta in G1.
  splits.
  - unfold config_ok; cbn [c_interval c_skip c_factor wcfg]; splits; try lia. unfold wbuf; apply repeat_length.
  - unfold h_ok, th. cbn [fst snd]. splits; [|lia|cbn; auto|].
    + unfold fis_good. cbn. repeat constructor; cbn; intuition congruence.
    + change (h_fis _) with wfis. unfold log_fits. split; [apply c24_fits; auto|splits; vm_compute; reflexivity].
  - unfold h_ok, ths. cbn [fst snd]. splits; [|lia|cbn; auto|].
    + unfold fis_good. cbn. repeat constructor; cbn; intuition congruence.
    + change (h_fis _) with tfis. unfold log_fits. split; [apply c24_fits; auto|splits; vm_compute; reflexivity].
  - rewrite G2. vm_compute. reflexivity.
  - unfold log_fits. split; [apply c24_fits; auto; apply Forall_app; auto|splits; vm_compute; reflexivity].
  - apply Forall_forall. intros x Hx. rewrite forallb_forall in G1. specialize (G1 x Hx). cbv beta in G1. apply andb_prop in G1. destruct G1 as [A B]. split; [destruct (i_del (w_in (snd x))); [discriminate|reflexivity]|].
    unfold small_files. cbv zeta. apply Forall_forall. intros f Hf. rewrite forallb_forall in B. apply Z.ltb_lt. apply B. exact Hf.
  - rewrite G2. change (h_fis th) with wfis. cbn [agree_all]. split; [|exact Logic.I]. unfold agrees. cbn [fis_fields tfis]. repeat (apply Forall_cons; [vm_compute; reflexivity|]). apply Forall_nil.
Qed.
Example c24_ex3 : match adds true (wrun 2 wops) (trun 3 tops) with Some s => Some (wdump s) | None => None end = Some [(4%nat, [wk [2]; wk [4]; wk [3]; wk [1]], Some [1; 1; 2; 1])].
Proof. vm_compute. reflexivity. Qed.

(* A document deleted in the source is back: its .del file is not copied, whatever the order of evaluation. *)
Definition dops : list wop := [WAdd (wdoc [3] [97; 99]) false; WAdd (wdoc [1] [98]) false; WDelete [116] [[97]]; WCommit].
Theorem C24_deleted_refuted : exists s s', wrun 2 [] = Some s /\ wrun 3 dops = Some s' /\ log ana1 10 wfis dops = [wdoc [1] [98]] /\ wdump s' = [(2%nat, [wk [1]], Some [2; 1])] /\
  forall ltr, exists s'', iw_add_readers ltr wcfg wbuf [(y_fis s', y_segs s')] s = Some s'' /\ wdump s'' = [(2%nat, [wk [3]; wk [1]], Some [2; 1])].
Proof.
  assert (H : forall ltr, match wrun 2 [], wrun 3 dops with Some s, Some s' => match iw_add_readers ltr wcfg wbuf [(y_fis s', y_segs s')] s with Some s'' => (wdump s', wdump s'') | None => ([], []) end | _, _ => ([], []) end =
     ([(2%nat, [wk [1]], Some [2; 1])], [(2%nat, [wk [3]; wk [1]], Some [2; 1])])) by (intros []; vm_compute; reflexivity).
  destruct (wrun 2 []) as [s|] eqn:E1; [|specialize (H true); discriminate H]. destruct (wrun 3 dops) as [s'|] eqn:E2; [|specialize (H true); discriminate H].
  exists s, s'. splits; auto.
  - pose proof (H true) as G. destruct (iw_add_readers true wcfg wbuf [(y_fis s', y_segs s')] s); [|discriminate G]. injection G as G _. exact G.
  - intros ltr. specialize (H ltr). destruct (iw_add_readers ltr wcfg wbuf [(y_fis s', y_segs s')] s) as [s''|]; [|discriminate H]. injection H as _ H. exists s''. auto.
Qed.
Print Assumptions C24_deleted_refuted.

(* If the source's field i is compressed and the writer's is not, the writer's is from then on read as if it was: its documents cannot be read any more. *)
Definition zfis : field_infos := mkFis 1 2 0 [mkFi [105] 1065353216 (1 + 2 + 4 + 16); mkFi [116] 1065353216 (4 + 8)].
Definition zrun (m : nat) (os : list wop) : option iw := iw_run ana1 norm1 zip1 1 wcfg wbuf (iw_open zfis [] m) os.
Theorem C24_compress_refuted : exists s s' s'', wrun 3 tops = Some s /\ zrun 3 tops = Some s' /\ wdump s = [(2%nat, [wk [3]; wk [1]], Some [2; 1])] /\ wdump s' = [(2%nat, [wk [3]; wk [1]], Some [2; 1])] /\
  iw_add_readers true wcfg wbuf [(y_fis s', y_segs s')] s = Some s'' /\ wdump s'' = [(4%nat, [None; None; wk [3]; wk [1]], Some [2; 1; 2; 1])].
Proof.
  assert (H : match wrun 3 tops, zrun 3 tops with Some s, Some s' => match iw_add_readers true wcfg wbuf [(y_fis s', y_segs s')] s with Some s'' => (wdump s, wdump s', wdump s'') | None => ([], [], []) end | _, _ => ([], [], []) end =
     ([(2%nat, [wk [3]; wk [1]], Some [2; 1])], [(2%nat, [wk [3]; wk [1]], Some [2; 1])], [(4%nat, [None; None; wk [3]; wk [1]], Some [2; 1; 2; 1])])) by (vm_compute; reflexivity).
  destruct (wrun 3 tops) as [s|] eqn:E1; [|discriminate H]. destruct (zrun 3 tops) as [s'|] eqn:E2; [|discriminate H].
  destruct (iw_add_readers true wcfg wbuf [(y_fis s', y_segs s')] s) as [s''|] eqn:E3; [|discriminate H]. injection H as H1 H2 H3. exists s, s', s''. auto 10.
Qed.
Print Assumptions C24_compress_refuted.

(* If is_read_u32 is called before is_read_u64 (C does not say which is first), the copy fails, on the histories of c24_ex. *)
Theorem C24_order_refuted : exists s s', wrun 2 wops = Some s /\ srun 3 sops = Some s' /\ iw_add_readers true wcfg wbuf [(y_fis s', y_segs s')] s <> None /\ iw_add_readers false wcfg wbuf [(y_fis s', y_segs s')] s = None.
Proof.
  assert (H : match wrun 2 wops, srun 3 sops with Some s, Some s' => match iw_add_readers true wcfg wbuf [(y_fis s', y_segs s')] s, iw_add_readers false wcfg wbuf [(y_fis s', y_segs s')] s with Some _, None => true | _, _ => false end | _, _ => false end = true)
    by (vm_compute; reflexivity).
  destruct (wrun 2 wops) as [s|] eqn:E1; [|discriminate H]. destruct (srun 3 sops) as [s'|] eqn:E2; [|discriminate H]. exists s, s'. splits; auto.
  - destruct (iw_add_readers true wcfg wbuf [(y_fis s', y_segs s')] s); [discriminate|discriminate H].
  - destruct (iw_add_readers true wcfg wbuf [(y_fis s', y_segs s')] s); [|discriminate H]. destruct (iw_add_readers false wcfg wbuf [(y_fis s', y_segs s')] s); [discriminate H|reflexivity].
Qed.
Print Assumptions C24_order_refuted.
