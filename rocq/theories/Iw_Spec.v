(* What an index writer is to its users: a log of added documents and deletions.  Documents become visible when they are committed. *)
From Verif Require Import Util Codec_Model Strcmp Seg_Model Dict_Model Dict_Spec Token_Model Post_Model Post_Spec PostRun_Proofs Merge_Model Merge_Spec Fields_Model Fields_Spec Fields_Proofs Invert_Model Invert_Spec Iw_Model.
Open Scope Z_scope.

Section SPEC.
  Variable ana : list Z -> list Z -> list token.
  Variable norm : field_info -> Z -> dfield -> Z -> Z.
  Variable unzip : list Z -> option (list Z).
  Variable fuel : nat.
  Variable max : Z.

  (* the documents added *)
  Definition added (os : list wop) : list document := flat_map (fun o => match o with WAdd d _ => [d] | _ => [] end) os.
  (* one of the terms is in the field *)
  Definition has_term (F : field_infos) (field : list Z) (ts : list (list Z)) (d : document) : bool :=
    match fis_get F field with
    | Some (n, _) => existsb (fun t => match at_ t (occs_in ana max F n d) with [] => false | _ => true end) ts
    | None => false end.
  (* the documents of the log *)
  Definition log_step (F : field_infos) (l : list document) (o : wop) : list document :=
    match o with WAdd d _ => l ++ [d] | WDelete f ts => filter (fun d => negb (has_term F f ts d)) l | _ => l end.
  Definition log (F : field_infos) (os : list wop) : list document := fold_left (log_step F) os [].

  (* what readers can see: the fields known so far, the committed documents, those that wait, max_buffered_docs *)
  Record vis := mkVis { v_fis : field_infos; v_docs : list document; v_wait : list document; v_max : nat }.
  Definition v_commit (v : vis) : vis := mkVis (v_fis v) (v_docs v ++ v_wait v) [] (v_max v).
  Definition v_step (F : field_infos) (v : vis) (o : wop) : vis :=
    match o with
    | WAdd d full => let v' := mkVis (add_fields (v_fis v) d) (v_docs v) (v_wait v ++ [d]) (v_max v) in
                     if full || (v_max v <=? length (v_wait v'))%nat then v_commit v' else v'
    | WDelete f ts => match fis_get (v_fis v) f with
                      | Some _ => let v' := v_commit v in mkVis (v_fis v') (filter (fun d => negb (has_term F f ts d)) (v_docs v')) [] (v_max v')
                      | None => v end
    | WCommit | WOptimize => v_commit v
    | WSetMax m => mkVis (v_fis v) (v_docs v) (v_wait v) m
    | WReopen m => let v' := v_commit v in mkVis (v_fis v') (v_docs v') [] m
    end.
  Definition v_run (F : field_infos) (v : vis) (os : list wop) : vis := fold_left (v_step F) os v.

  (* max_buffered_docs is at least 1, and while the writer is open and has had a document it is not set above what it was then *)
  Fixpoint max_ok (cur : nat) (cap : option nat) (os : list wop) : Prop :=
    match os with
    | [] => True
    | WAdd _ _ :: t => max_ok cur (Some (match cap with Some c => c | None => cur end)) t
    | WSetMax m :: t => (1 <= m)%nat /\ match cap with Some c => (m <= c)%nat | None => True end /\ max_ok m cap t
    | WReopen m :: t => (1 <= m)%nat /\ max_ok m None t
    | _ :: t => max_ok cur cap t
    end.

  (* a segment holds the documents ds: every enumerator, every stored document and the norms are theirs *)
  Definition reads (F : field_infos) (kn : nat) (x : wseg) (ds : list document) : Prop :=
    i_max (w_in x) = length ds /\
    (exists fs, (forall n t, postings fs (Z.of_nat n) t = posts ana max F n t O ds) /\
       forall pos os, Forall (okop kn pos) os ->
         tde_run pos (i_seg (w_in x)) (i_sfi (w_in x)) (tir_open, tde_new (g_frq (i_seg (w_in x))) (g_prx (i_seg (w_in x)))) os = Some (pspec_run fs ([], []) os)) /\
    (forall j d, nth_error ds j = Some d -> fr_get_doc unzip (S fuel) F (w_fdt x) (w_fdx x) j = Some (stored_view F d)) /\
    (forall j d num, nth_error ds j = Some d -> Forall tv_ok (vectors ana max F d) ->
       fr_get_field_tv F (w_fdt x) (w_fdx x) j num =
       Some (match find (fun t : tv_in => (fst (fst t) =? num)%nat) (vectors ana max F d) with
             | Some t => match nth_error (fis_fields F) num with Some f => Some (tv_of f t) | None => None end | None => None end)) /\
    (forall n f, nth_error (fis_fields F) n = Some f -> fi_has_norms f = true ->
       match norm_file n x with Some l => l = map (norm_of ana norm max F n) ds | None => Forall (fun d => has_field F n d = false) ds end).
  (* the documents that are not deleted, in the order of the segments *)
  Definition shows (F : field_infos) (kn : nat) (segs : list wseg) (docs : list document) : Prop :=
    exists ps : list (wseg * list document), map fst ps = segs /\ Forall (fun p => reads F kn (fst p) (snd p)) ps /\
      docs = flat_map (fun p => live_of (dels (w_in (fst p))) (snd p)) ps.

  (* terms that leave the merger's buffer room, see short *)
  Definition short_terms (interval : nat) (F : field_infos) (d : document) : Prop :=
    forall n, Forall (fun o => ((interval + 2) * (length (o_text o) + 1) <= (interval + 1) * Dict_Model.MAX_WORD_SIZE + 1)%nat) (occs_in ana max F n d).
  (* all that was added fits the formats *)
  Definition log_fits (zip : list Z -> list Z) (interval : nat) (F : field_infos) (docs : list document) : Prop :=
    Forall (fun d => doc_good ana max F d /\ short_terms interval F d /\ small_zip zip F d /\ doc_fits (d, vectors ana max F d)) docs /\
    Z.of_nat (12 * length docs) < 2 ^ 31 /\ Z.of_nat (length (fis_fields F)) < 2 ^ 31 /\ Z.of_nat (occ_count ana max F docs) < 2 ^ 26 /\
    Z.of_nat (length (fdt_of (map (rec_of zip F) (with_vectors ana max F docs)))) < 2 ^ 63.
  Definition config_ok (cfg : config) (buf0 : list Z) (n : nat) : Prop :=
    (1 <= c_interval cfg)%nat /\ Z.of_nat (c_interval cfg) < 2 ^ 31 /\ (1 <= c_skip cfg)%nat /\ Z.of_nat (c_skip cfg) < 2 ^ 31 /\ 2 <= c_factor cfg /\
    Z.of_nat n * c_factor cfg < 2 ^ 31 /\ length buf0 = buf_alloc (c_interval cfg).
End SPEC.

(* a key names the last document that was added with it *)
Definition same_key (key : list Z) (d e : document) : bool :=
  match key_of key d, key_of key e with Some u, Some v => seqb u v | _, _ => false end.
Fixpoint latest (key : list Z) (docs : list document) : list document :=
  match docs with [] => [] | d :: r => if existsb (same_key key d) r then latest key r else d :: latest key r end.
(* the key field is indexed whole; a document has at most one value in it *)
Definition key_ok (F : field_infos) (key : list Z) (docs : list document) : Prop :=
  (forall n f, fis_get F key = Some (n, f) -> fi_is_indexed f = true /\ fi_is_tokenized f = false) /\
  Forall (fun d => Forall (fun df => df_name df = key -> exists v, df_data df = [v] /\ (length v <= Token_Model.MAX_WORD_SIZE)%nat) (d_fields d)) docs.
