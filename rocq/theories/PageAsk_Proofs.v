(* Pages of hits for query strings. *)
From Verif Require Import Util Codec_Model Strcmp Codec_Spec Seg_Model Seg_Spec Dict_Model Token_Model Merge_Model Merge_Spec Fields_Model Fields_Spec Query_Model Expand_Model Fuzzy_Model Range_Model Range_Spec Invert_Model Invert_Spec Iw_Model Iw_Spec IwRun_Proofs Tsc_Model Tsc_Spec Tpe_Model Tpe_Spec Find_Model Find_Spec FindTop_Proofs Leaf_Model Bool_Model Search_Model Search_Spec Sort_Model Look_Model Look_Spec LookTop_Proofs Page_Model Page_Spec Page_Proofs.
From Verif Require Import QpAct_Model Qp_Model Qp_Spec QpAst_Spec QpMean_Spec Ask_Model Ask_Spec AskTop_Proofs AskFound_Proofs AskCalm_Proofs.
Open Scope Z_scope.
Open Scope list_scope.

Ltac splits := repeat match goal with |- _ /\ _ => split end.
Section PA.
  Variables (cf : qconf) (pl : nat) (ana : list Z -> list Z -> list token) (max : Z) (F : field_infos) (calc : Z -> Z -> Z) (sim : fscore -> Z).
  Variables (scan_ld scan_g len_d len_f : list Z -> option Z) (coll : list Z -> list Z -> Z).
  (* a search with a string: the parser made the query of the search of it *)
  Definition ready_page os slots (x : list Z * (request * list stype)) : Prop := ready_for cf pl ana max F calc sim os slots (fst x, rq_query (fst (snd x))) /\ page_ok ana max F scan_ld scan_g len_d len_f slots (added os) (fst (snd x)) (snd (snd x)).
  Definition said slots (t : top) (q : request) (d : Z) : Prop :=
    exists k x, d = Z.of_nat k /\ nth_error slots k = Some (Some x) /\ top_says cf (doc_has ana max F x) (doc_phrase ana max F x) (alike sim pl) t /\ match rq_filter q with None => True | Some (f, g) => doc_has ana max F x f (in_range g) end.
  (* the page of the documents of which the string speaks, however it is read *)
  Definition told slots (x : list Z * (request * list stype)) (o : Sort_Model.outcome topdocs) : Prop :=
    (exists t, writes cf (fst x) t) /\ forall t, writes cf (fst x) t -> answered_by ana max F scan_ld scan_g coll slots (said slots t (fst (snd x))) (snd x) o.
  Lemma answered_ext slots W V p o : (forall d, W d <-> V d) -> answered_by ana max F scan_ld scan_g coll slots W p o -> answered_by ana max F scan_ld scan_g coll slots V p o.
  Proof. intros H (td & L & R & A1 & A2 & A3 & A4). exists td, L, R. split; [exact A1|]. split; [exact A2|]. split; [|exact A4]. intros d. rewrite A3. apply H. Qed.
  Lemma told_answered os slots x o : settled cf -> ready_page os slots x -> answered ana max F scan_ld scan_g coll slots sim (snd x) o -> told slots x o.
  Proof.
    intros HS ((q & HM & HP & HU & _) & _) HA. cbn [fst snd] in *. destruct (means cf (fst x) q HS HM HP) as (HE & H). split; [exact HE|]. intros t W. eapply answered_ext; [|exact HA]. intros d. unfold wanted, said. split; intros (k & y & E & N & G & GF); exists k, y; splits; auto.
    - apply (H t W _ _ _ (doc_ext ana max F y)). eapply link; [apply doc_ext|exact HU|exact G].
    - apply (H t W _ _ _ (doc_ext ana max F y)) in G. eapply link; [apply doc_ext|exact HU|exact G].
  Qed.
  Lemma ready_fair os slots xs : Forall (ready_page os slots) xs -> Forall (fair ana max F calc sim scan_ld scan_g len_d len_f os slots) (map snd xs).
  Proof. intros H. apply Forall_map. eapply Forall_impl; [|exact H]. intros x ((q & _ & _ & _ & G) & G2). split; assumption. Qed.
  Lemma all_told os slots xs outs : settled cf -> Forall (ready_page os slots) xs -> Forall2 (answered ana max F scan_ld scan_g coll slots sim) (map snd xs) outs -> Forall2 (told slots) xs outs.
  Proof. intros HS HX. revert outs. induction HX as [|x xs H HX IH]; intros outs HF; inversion HF; subst; constructor; [|apply IH; assumption]. eapply told_answered; eauto. Qed.
End PA.
Theorem told_after ana norm zip unzip fuel cfg buf0 fis m os calc sim srt scan_ld scan_g len_d len_f coll cf pl : let F := fis_of fis (added os) in let max := c_field_length cfg in settled cf ->
  qs_ok srt -> coll_ok coll -> config_ok cfg buf0 (length (added os)) -> (3 <= c_skip cfg)%nat -> codec zip unzip -> log_fits ana max zip (c_interval cfg) F (added os) -> (1 <= m)%nat -> max_ok m None os ->
  exists s slots, iw_run ana norm zip (S fuel) cfg buf0 (iw_open fis [] m) os = Some s /\ somes slots = v_docs (view ana cfg fis m os) /\
    forall xs, Forall (ready_page cf pl ana max F calc sim scan_ld scan_g len_d len_f os slots) xs -> exists n, forall fu, (n <= fu)%nat -> forall t, tir_used (reader_of (y_segs s)) t ->
      exists outs, (exists n2, forall fv, (n2 <= fv)%nat -> searchesw calc sim srt scan_ld scan_g len_d len_f coll s fu fv (map (fun x => fst (snd x)) xs) t = Some outs) /\ Forall2 (told cf pl ana max F sim scan_ld scan_g coll slots) xs outs.
Proof.
  intros F max HS HQS HC H1 H2 H3 H4 H5 H6. destruct (paged_after ana norm zip unzip fuel cfg buf0 fis m os calc sim srt scan_ld scan_g len_d len_f coll HQS HC H1 H2 H3 H4 H5 H6) as (s & slots & R1 & R2 & _ & R4). exists s, slots. splits; auto. intros xs HX.
  destruct (R4 (map snd xs) (ready_fair _ _ _ _ _ _ _ _ _ _ _ _ _ _ HX)) as (n & Hn). exists n. intros fu Hfu t U. destruct (Hn fu Hfu t U) as (outs & E & HA). rewrite map_map in E. exists outs. split; [exact E|]. eapply all_told; eauto.
Qed.
Theorem told_committed ana norm zip unzip fuel cfg buf0 fis m os calc sim srt scan_ld scan_g len_d len_f coll cf pl : let F := fis_of fis (added os) in let max := c_field_length cfg in settled cf ->
  qs_ok srt -> coll_ok coll -> config_ok cfg buf0 (length (added os)) -> (3 <= c_skip cfg)%nat -> codec zip unzip -> log_fits ana max zip (c_interval cfg) F (added os) -> (1 <= m)%nat -> max_ok m None os ->
  exists s slots, iw_run ana norm zip (S fuel) cfg buf0 (iw_open fis [] m) (os ++ [WCommit]) = Some s /\ somes slots = log ana max F os /\
    forall xs, Forall (ready_page cf pl ana max F calc sim scan_ld scan_g len_d len_f os slots) xs -> exists n, forall fu, (n <= fu)%nat -> forall t, tir_used (reader_of (y_segs s)) t ->
      exists outs, (exists n2, forall fv, (n2 <= fv)%nat -> searchesw calc sim srt scan_ld scan_g len_d len_f coll s fu fv (map (fun x => fst (snd x)) xs) t = Some outs) /\ Forall2 (told cf pl ana max F sim scan_ld scan_g coll slots) xs outs.
Proof.
  intros F max HS HQS HC H1 H2 H3 H4 H5 H6. destruct (paged_committed ana norm zip unzip fuel cfg buf0 fis m os calc sim srt scan_ld scan_g len_d len_f coll HQS HC H1 H2 H3 H4 H5 H6) as (s & slots & R1 & R2 & _ & R4). exists s, slots. splits; auto. intros xs HX.
  destruct (R4 (map snd xs) (ready_fair _ _ _ _ _ _ _ _ _ _ _ _ _ _ HX)) as (n & Hn). exists n. intros fu Hfu t U. destruct (Hn fu Hfu t U) as (outs & E & HA). rewrite map_map in E. exists outs. split; [exact E|]. eapply all_told; eauto.
Qed.
