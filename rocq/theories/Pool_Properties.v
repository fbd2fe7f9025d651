(* C98, C99: the memory an index writer works in *)
From Verif Require Import Util Pool_Model Pool_Spec Pool_Proofs PoolDw_Proofs PoolIw_Proofs.
Open Scope Z_scope.
(* C98: blocks of a pool are arrays of their own, over any history of allocations, writes and resets *)
Theorem C98_blocks chunk capa mem ops bs : 1 <= capa <= 1073741823 -> 0 <= chunk <= 1073741823 -> Forall (fits chunk) ops -> spaced 536870909 0 ops -> srun [] ops = Some bs ->
  exists p s, mp_new_capa chunk capa mem = Some p /\ prun (p, []) ops = Some s /\ contents s = map Some bs /\
    (forall i j x y, i <> j -> nth_error (snd s) i = Some x -> nth_error (snd s) j = Some y -> fst (fst x) <> fst (fst y) \/ snd (fst x) + snd x <= snd (fst y) \/ snd (fst y) + snd y <= snd (fst x)).
Proof. exact (pool_blocks chunk capa mem ops bs). Qed.
Print Assumptions C98_blocks.
(* chunks of four bytes, a table for one: three buffers, the second one used again after the reset *)
Example pool_example : let ops := [Dup [1;2;3]; Zero 2; Poke 0 1 9; Dup [5;6;7;8]; Poke 1 1 4; Reset; Dup [1]; Zero 4; Dup [7]; Poke 1 3 2] in
  Forall (fits 4) ops /\ spaced 536870909 0 ops /\ srun [] ops = Some [[1]; [0;0;0;2]; [7]] /\
  (do p <- mp_new_capa 4 1 (fun b o => 10 * b + o + 1); do s <- prun (p, []) (firstn 5 ops); Some (contents s, map fst (snd s))) = Some ([Some [1;9;3]; Some [0;4]; Some [5;6;7;8]], [(0, 0); (1, 0); (2, 0)]) /\
  (do p <- mp_new_capa 4 1 (fun b o => 10 * b + o + 1); do s <- prun (p, []) ops; Some (contents s, map fst (snd s), p_alloc (fst s), p_capa (fst s))) = Some ([Some [1]; Some [0;0;0;2]; Some [7]], [(0, 0); (1, 0); (2, 0)], 3, 4).
Proof. split; [repeat constructor; cbn; lia|]. split; [cbn; repeat split; lia|]. vm_compute. repeat split. Qed.

(* C99: a writer's history.  Every document goes into one segment, in order, with its norms and its blocks *)
Theorem C99_segments has_norms mem ch md mm most c l : 32 <= ch -> 1 <= md <= ch -> 0 <= most -> steady ch md mm most false c l ->
  exists s s' batches, iw_run has_norms mem (mkIw c None []) l = Some s /\ iw_step has_norms mem s WCommit = Some s' /\ docs_of l = concat batches /\ Forall2 (segment_of has_norms) batches (i_out s').
Proof. intros H1 H2 H3 H4. exact (writer_ok has_norms mem ch md mm most H1 H2 H3 c l H4). Qed.
Print Assumptions C99_segments.
(* chunks of 40 bytes, norms for two documents: three documents in two segments; the second document writes to a block of the first *)
Definition fx (n : Z) (f : Z) (norm : Z) : fld := mkFld f (fun bs => ADup [n] :: match bs with [] => [] | b :: _ => map (fun i => APoke 0 (Z.of_nat i) n) (seq 0 (length b)) end) norm.
Lemma fx_tidy n f norm : tidy 40 1 (fx n f norm).
Proof.
  intros bs. cbn [f_acts fx]. assert (G : forall k (bs : list (list Z)) b, nth_error bs 0 = Some b -> forall i, (i + k = length b)%nat -> exists bs', acts_blocks bs (map (fun i => APoke 0 (Z.of_nat i) n) (seq i k)) = Some bs').
  { induction k as [|k IH]; intros cs b HB i HI; [eexists; reflexivity|]. cbn [seq map acts_blocks act_blocks]. rewrite HB. cbn [obind]. destruct (Z.leb_spec 0 (Z.of_nat i)); [|lia]. destruct (Z.ltb_spec (Z.of_nat i) (Z.of_nat (length b))); [|lia]. cbn [andb obind]. destruct cs as [|c cs]; [discriminate|]. apply some_inj in HB. subst c. eapply (IH _ (upd b (Z.to_nat (Z.of_nat i)) n)); [reflexivity|]. rewrite upd_length. lia. }
  assert (G2 : forall l : list nat, Forall (act_fits 40) (map (fun i => APoke 0 (Z.of_nat i) n) l) /\ dups (map (fun i => APoke 0 (Z.of_nat i) n) l) = 0) by (induction l as [|a l [I1 I2]]; [repeat constructor|split; [constructor; [exact Logic.I|exact I1]|exact I2]]).
  destruct bs as [|b bs].
  - exists [[n]]. split; [reflexivity|]. split; [constructor; [vm_compute; discriminate|constructor]|]. vm_compute. discriminate.
  - destruct (G (length b) ((b :: bs) ++ [[n]]) b eq_refl 0%nat ltac:(lia)) as (bs' & E). exists bs'. cbn [acts_blocks act_blocks obind]. split; [exact E|]. destruct (G2 (seq 0 (length b))) as (G3 & G4). split; [constructor; [cbn; lia|exact G3]|]. unfold dups in *. cbn [filter length]. lia.
Qed.
Definition conf_small : config := mkConf 40 120 2.
Definition hist_small : list wop := [WChunk 7; WChunk 40; WAdd [fx 1 0 11; fx 2 1 12]; WDocs 1; WAdd [fx 3 0 13]; WMemory 60; WDocs 2; WAdd [fx 4 2 14; fx 5 0 15; fx 6 0 16]].
Example writer_example mem : steady 40 2 120 1 false conf_small hist_small /\
  (do s <- iw_run (fun f => negb (f =? 2)) mem (mkIw conf_small None []) hist_small; do s' <- iw_step (fun f => negb (f =? 2)) mem s WCommit; Some (i_out s')) =
  Some [([(0, [11; 13]); (1, [12; 0])], [[3]; [2]; [3]]); ([(0, [16])], [[6]; [5]; [6]])].
Proof. split; [|vm_compute; reflexivity]. cbn. unfold sized. cbn. repeat match goal with |- _ /\ _ => split end; try (unfold INT_MAX; lia); try exact Logic.I; try reflexivity; repeat (apply Forall_cons; [apply fx_tidy|]); apply Forall_nil. Qed.

(* refuted: the documentation recommends max_buffered_docs = FIX_INT_MAX.  The norms of a field then do not fit into a chunk *)
Theorem C99_documented_refuted has_norms mem c x d l : 32 <= chunk_size c <= max_buffer_memory c -> chunk_size c < max_buffered_docs c -> has_norms (f_num x) = true -> iw_run has_norms mem (mkIw c None []) (WAdd (x :: d) :: l) = None.
Proof. exact (norms_outside has_norms mem c x d l). Qed.
Print Assumptions C99_documented_refuted.
Example documented_example mem : iw_run (fun _ => true) mem (mkIw (mkConf (chunk_size default_config) (max_buffer_memory default_config) 1073741823) None []) [WAdd [mkFld 0 (fun _ => [ADup [97]]) 124]] = None /\
  iw_run (fun _ => true) mem (mkIw default_config None []) [WAdd [mkFld 0 (fun _ => [ADup [97]]) 124]] <> None.
Proof. split; [apply C99_documented_refuted; [split; vm_compute; discriminate|reflexivity|reflexivity]|]. vm_compute. discriminate. Qed.
(* refuted: raised after the first document, the setting lets the norms of later documents run into other blocks, here the first document's term *)
Definition one : fld := mkFld 0 (fun _ => [ADup [97]]) 5.
Theorem C99_raised_refuted mem : exists s, iw_run (fun _ => true) mem (mkIw (mkConf 1048576 16777216 2) None []) [WAdd [one]; WDocs 10000; WAdd [one]; WAdd [one]; WCommit] = Some s /\
  i_out s = [([(0, [5; 5; 5])], [[5]; [97]; [97]])] /\ ~ exists batches, concat batches = [[one]; [one]; [one]] /\ Forall2 (segment_of (fun _ => true)) batches (i_out s).
Proof. exact (raised mem). Qed.
Print Assumptions C99_raised_refuted.
(* refuted: less memory than one chunk, or chunks of no size *)
Theorem C99_small_memory_refuted has_norms mem c d l : 0 <= max_buffer_memory c < chunk_size c -> iw_run has_norms mem (mkIw c None []) (WAdd d :: l) = None.
Proof. exact (small_memory has_norms mem c d l). Qed.
Print Assumptions C99_small_memory_refuted.
Theorem C99_zero_chunk_refuted has_norms mem c d l : chunk_size c = 0 -> iw_run has_norms mem (mkIw c None []) (WAdd d :: l) = None.
Proof. exact (zero_chunk has_norms mem c d l). Qed.
Print Assumptions C99_zero_chunk_refuted.
Example small_memory_example mem : iw_run (fun _ => true) mem (mkIw (mkConf 1048576 1000000 10000) None []) [WAdd [one]] = None /\ iw_run (fun _ => true) mem (mkIw (mkConf 0 16777216 10000) None []) [WAdd [one]] = None.
Proof. split; [apply C99_small_memory_refuted; cbn; lia|apply C99_zero_chunk_refuted; reflexivity]. Qed.
