(* C103-C105: the Ruby class Index: one object is a list of documents; several with :auto_flush share one; keys. *)
From Coq Require Import List ZArith Bool Arith Permutation.
From Verif Require Import Util Idx_Model Idx_Spec Idx_Proofs IdxShare_Proofs.
Import ListNotations.

(* C103: whatever is called on one object, in whatever order, the results are those of a list of documents *)
Theorem C103_list : forall pol opt me d cs,
  good_policy pol -> d_lock d = None -> Forall (supported opt) cs ->
  explains opt (mkAbs (d_cells d) true) cs (fst (runs pol opt me cs (mkSt fresh d))).
Proof. exact one_object. Qed.
Print Assumptions C103_list.

(* with :auto_flush, update of a String raises, and what it was to replace is deleted: after any history *)
Theorem C103_update_refuted : forall pol opt me d cs t x,
  good_policy pol -> d_lock d = None -> auto_flush opt = true -> Forall (supported opt) cs ->
  (forall e, ~ In (Raise e) (fst (runs pol opt me cs (mkSt fresh d)))) ->
  let s := snd (runs pol opt me cs (mkSt fresh d)) in
  exists s' l, run pol opt me (Update (inr t) x) s = (Raise NoMethod, s') /\
               fst (run pol opt me Each s) = Ok (Docs l) /\ fst (run pol opt me Each s') = Ok (Docs (without (named opt [t]) l)).
Proof. exact update_lost. Qed.
Print Assumptions C103_update_refuted.

(* documents with a field 0 whose value is its only term; merging squeezes out all holes; hits by falling number *)
Definition d_of (z : Z) : doc := [(0, ([z], [[z]]))].
Definition squeeze : policy := mkPol (fun l => 3 <=? length l) (fun l => filter snd l) (fun _ => 1) (fun l => rev l).
Definition plain_opt (auto : bool) (k : keys) : options := mkOpt auto 0 k.
Definition empty : dir := mkDir [] 0 0 None.
Lemma squeeze_good : good_policy squeeze.
Proof.
  split; [exact live_filter|]. split; [intros l; apply le_n|]. intros l. apply Permutation_sym, Permutation_rev.
Qed.

(* adding, deleting by name and by number, updating, searching; numbers stay until the next writes *)
Example C103_list_ex :
  fst (runs squeeze (plain_opt false NoKey) 0
        [Add (d_of 1); Add (d_of 2); Add (d_of 3); Delete (inr [2%Z]); Add (d_of 4); Search (fun x => has_term 0 [3%Z] x || has_term 0 [4%Z] x);
         Delete (inl 1); Size; DocAt 2; Update (inr [1%Z]) (d_of 5); Each; DocAt 7] (mkSt fresh empty))
  = [Ok Unit; Ok Unit; Ok Unit; Ok Unit; Ok Unit; Ok (Hits [(2, d_of 4); (1, d_of 3)]); Ok Unit; Ok (Nat 2); Ok (Doc (Some (d_of 4)));
     Ok Unit; Ok (Docs [d_of 4; d_of 5]); Raise NoDoc].
Proof. vm_compute. reflexivity. Qed.
Example C103_list_use : Forall (supported (plain_opt false NoKey)) [Update (inr [1%Z]) (d_of 5); Each].
Proof. repeat constructor. Qed.
Example C103_update_ex :
  fst (runs squeeze (plain_opt true NoKey) 0 [Add (d_of 1); Each; Update (inr [1%Z]) (d_of 5)] (mkSt fresh empty))
  = [Ok Unit; Ok (Docs [d_of 1]); Raise NoMethod].
Proof. vm_compute. reflexivity. Qed.

(* close commits what the object's own reads have shown and frees the lock; then nothing can be called but flush, which does nothing *)
Theorem C103_close : forall pol opt me d cs,
  good_policy pol -> d_lock d = None -> Forall (supported opt) cs ->
  (forall e, ~ In (Raise e) (fst (runs pol opt me cs (mkSt fresh d)))) ->
  let s := snd (runs pol opt me cs (mkSt fresh d)) in
  exists s' l, close pol s = (Ok tt, s') /\ fst (run pol opt me Each s) = Ok (Docs l) /\
               live (d_cells (dr s')) = l /\ d_lock (dr s') = None /\
               (forall c, c <> Flush -> c <> DeleteBatch [] -> fst (run pol opt me c s') = Raise Closed) /\ fst (close pol s') = Raise Closed.
Proof. exact close_keeps. Qed.
Print Assumptions C103_close.
Example C103_close_ex :
  let s := snd (runs squeeze (plain_opt false NoKey) 0 [Add (d_of 1); Add (d_of 2); Delete (inl 0); Search (fun _ => true)] (mkSt fresh empty)) in
  d_lock (dr s) = Some 0 /\ live (d_cells (dr s)) = [d_of 1; d_of 2] /\
  live (d_cells (dr (snd (close squeeze s)))) = [d_of 2] /\ d_lock (dr (snd (close squeeze s))) = None.
Proof. vm_compute. repeat split; reflexivity. Qed.

(* to_s stops at the number of documents, counted without the holes between them *)
Theorem C103_to_s_refuted :
  let (rs, s) := runs squeeze (plain_opt false NoKey) 0 [Add (d_of 1); Add (d_of 2); Delete (inr [1%Z]); Each; ToS] (mkSt fresh empty) in
  rs = [Ok Unit; Ok Unit; Ok Unit; Ok (Docs [d_of 2]); Ok (Docs [])].
Proof. vm_compute. reflexivity. Qed.
Print Assumptions C103_to_s_refuted.

(* deleting a number that is not there raises nothing, whatever the state of the object, although the documentation says so *)
Theorem C103_missing_refuted : forall pol opt me d n,
  good_policy pol -> d_lock d = None -> length (d_cells d) <= n ->
  fst (runs pol opt me [Delete (inl n); Each] (mkSt fresh d)) = [Ok Unit; Ok (Docs (live (d_cells d)))].
Proof.
  intros pol opt me d n HP HL Hn.
  assert (HS : Forall (supported opt) [Delete (inl n); Each]) by (repeat constructor).
  pose proof (one_object pol opt me d [Delete (inl n); Each] HP HL HS) as H.
  revert H. generalize (fst (runs pol opt me [Delete (inl n); Each] (mkSt fresh d))) as rs. intros rs H.
  inversion H as [|a b c v cs rs1 S1 H1 Ea Ec Er|a c e cs F Ea Ec Er]; [|destruct F].
  inversion H1 as [|a' b' c' v' cs' rs2 S2 H2 Ea' Ec' Er'|a' c' e cs' F Ea' Ec' Er']; [|destruct F].
  inversion H2. cbn [step] in S1, S2. destruct S1 as (-> & _ & m & Hm & E). destruct S2 as (_ & ->).
  assert (Em : nums m = d_cells d) by (destruct Hm as (_ & _ & Hm); exact (Hm eq_refl)).
  unfold docs. rewrite E, Em, kill_at_far by exact Hn. reflexivity.
Qed.
Print Assumptions C103_missing_refuted.

(* C104: objects with :auto_flush on one directory, in any order of their calls: no lock errors, and each call sees all that
   went before it, by whichever object - for objects that do not mix searching with the calls that look at the reader alone *)
Theorem C104_shared : forall pol opts d n cs,
  good_policy pol -> (forall i, auto_flush (opts i) = true) -> d_lock d = None -> 1 <= d_segs d ->
  one_way cs -> Forall (fun ic => sharing (snd ic) /\ fst ic < n) cs ->
  shared opts (mkAbs (d_cells d) true) cs (fst (share pol opts cs (mkWorld (repeat fresh n) d))).
Proof. exact many_objects. Qed.
Print Assumptions C104_shared.
Definition one : dir := mkDir [(d_of 1, true)] 4 1 None.
Example C104_shared_ex :
  fst (share squeeze (fun _ => plain_opt true NoKey)
        [(0, Search (fun _ => true)); (1, Size); (1, Add (d_of 2)); (0, Search (fun _ => true)); (0, Add (d_of 3)); (1, Size);
         (1, Delete (inl 0)); (0, Search (fun _ => true))] (mkWorld (repeat fresh 2) one))
  = [(0, Ok (Hits [(0, d_of 1)])); (1, Ok (Nat 1)); (1, Ok Unit); (0, Ok (Hits [(1, d_of 2); (0, d_of 1)])); (0, Ok Unit); (1, Ok (Nat 3));
     (1, Ok Unit); (0, Ok (Hits [(2, d_of 3); (1, d_of 2)]))].
Proof. vm_compute. reflexivity. Qed.
Example C104_shared_use :
  one_way [(0, Search (fun _ => true)); (1, Size); (1, Add (d_of 2))] /\
  Forall (fun ic => sharing (snd ic) /\ fst ic < 2) [(0, Search (fun _ => true)); (1, Size); (1, Add (d_of 2))].
Proof.
  split.
  - intros i c c' H H' E. cbn [In] in *.
    destruct H as [H|[H|[H|[]]]]; inversion H; subst; try discriminate E.
    destruct H' as [H'|[H'|[H'|[]]]]; inversion H'; reflexivity.
  - repeat constructor.
Qed.

(* an object that has searched, then is asked for its size after another object's commit, crashes at the next search *)
Theorem C104_searcher_refuted :
  fst (share squeeze (fun _ => plain_opt true NoKey)
        [(0, Search (fun _ => true)); (1, Add (d_of 2)); (0, Size); (0, Search (fun _ => true))] (mkWorld (repeat fresh 2) one))
  = [(0, Ok (Hits [(0, d_of 1)])); (1, Ok Unit); (0, Ok (Nat 2)); (0, Raise Crash)].
Proof. vm_compute. reflexivity. Qed.
Print Assumptions C104_searcher_refuted.
(* and at once when it is told to delete a document by number *)
Theorem C104_delete_refuted :
  fst (share squeeze (fun _ => plain_opt true NoKey)
        [(0, Search (fun _ => true)); (1, Add (d_of 2)); (0, Delete (inl 0))] (mkWorld (repeat fresh 2) one))
  = [(0, Ok (Hits [(0, d_of 1)])); (1, Ok Unit); (0, Raise Crash)].
Proof. vm_compute. reflexivity. Qed.
Print Assumptions C104_delete_refuted.
(* an object that looked at the index while it had no segment never sees what others add *)
Theorem C104_empty_refuted :
  fst (share squeeze (fun _ => plain_opt true NoKey)
        [(0, Size); (1, Add (d_of 2)); (0, Size); (0, Search (fun _ => true)); (1, Size)] (mkWorld (repeat fresh 2) empty))
  = [(0, Ok (Nat 0)); (1, Ok Unit); (0, Ok (Nat 0)); (0, Ok (Hits [])); (1, Ok (Nat 1))].
Proof. vm_compute. reflexivity. Qed.
Print Assumptions C104_empty_refuted.
(* add_indexes and field_infos keep the lock in spite of :auto_flush *)
Theorem C104_lock_refuted :
  fst (share squeeze (fun _ => plain_opt true NoKey) [(0, AddIndexes [[(d_of 7, true)]]); (1, Add (d_of 2))] (mkWorld (repeat fresh 2) one))
  = [(0, Ok Unit); (1, Raise LockError)] /\
  fst (share squeeze (fun _ => plain_opt true NoKey) [(0, FieldInfos); (1, Delete (inl 0))] (mkWorld (repeat fresh 2) one))
  = [(0, Ok Unit); (1, Raise LockError)].
Proof. vm_compute. split; reflexivity. Qed.
Print Assumptions C104_lock_refuted.

(* C105: with a key, one field or several, there is never more than one document of a key *)
Theorem C105_unique : forall pol opt me cs i l,
  good_policy pol -> key opt <> NoKey -> Forall (by_key opt) cs -> Forall (supported opt) cs ->
  nth_error cs i = Some Each -> nth_error (fst (runs pol opt me cs (mkSt fresh (mkDir [] 0 0 None)))) i = Some (Ok (Docs l)) ->
  NoDup (map (key_of opt) l).
Proof. exact one_of_each_key. Qed.
Print Assumptions C105_unique.
Definition two (a b : Z) : doc := [(0, ([a], [[a]])); (1, ([b], [[b]]))].
Example C105_unique_ex :
  fst (runs squeeze (plain_opt true (Keys [0; 1])) 0
        [Add (two 1 1); Add (two 1 2); Add (two 2 1); Add (two 1 2); Each] (mkSt fresh empty))
  = [Ok Unit; Ok Unit; Ok Unit; Ok Unit; Ok (Docs [two 1 1; two 2 1; two 1 2])].
Proof. vm_compute. reflexivity. Qed.
Example C105_unique_use : Forall (by_key (plain_opt true (Keys [0; 1]))) [Add (two 1 1); Add (two 1 2); Each].
Proof.
  assert (H : forall a b f, In f (key_fields (plain_opt true (Keys [0; 1]))) -> plain f (two a b)).
  { intros a b f [<-|[<-|[]]]; reflexivity. }
  constructor; [exact (H 1%Z 1%Z)|]. constructor; [exact (H 1%Z 2%Z)|]. constructor; [exact Logic.I|constructor].
Qed.

(* batch_update, which its documentation says guarantees no duplicate keys, does not look for them in what it is given *)
Theorem C105_batch_refuted :
  let opt := plain_opt false (OneKey 0) in
  let l := [two 1 1; two 1 2] in
  fst (runs squeeze opt 0 [BatchUpdate l; Each] (mkSt fresh empty)) = [Ok Unit; Ok (Docs l)] /\ ~ NoDup (map (key_of opt) l).
Proof.
  cbv zeta. split; [vm_compute; reflexivity|]. vm_compute. intros H. inversion H as [|x l H1 H2]. apply H1. left. reflexivity.
Qed.
Print Assumptions C105_batch_refuted.
(* nor does update of a number, or of an id to a document with another *)
Theorem C105_update_refuted :
  let opt := plain_opt false (OneKey 0) in
  fst (runs squeeze opt 0 [Add (d_of 1); Add (d_of 2); Update (inr [1%Z]) (d_of 2); Each] (mkSt fresh empty))
  = [Ok Unit; Ok Unit; Ok Unit; Ok (Docs [d_of 2; d_of 2])].
Proof. vm_compute. reflexivity. Qed.
Print Assumptions C105_update_refuted.
