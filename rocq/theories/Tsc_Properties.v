(* C76 C77 C78: the documents that term, multi term, prefix and wildcard queries find. *)
From Verif Require Import Util Strcmp Dict_Model Post_Model Post_Spec PQueue_Model Multi_Model Mte_Model Mte_Spec Mtde_Model Mtde_Spec Mtde_Properties Expand_Model Expand_Spec Range_Model Range_Spec Range_Properties Tsc_Model Tsc_Spec TscOpen_Proofs TscQuery_Proofs.
From Coq Require Import Sorting.Permutation.
Open Scope Z_scope.
Ltac splits := repeat match goal with |- _ /\ _ => split end.

(* On any index of one or several segments, after any earlier lookups, for any term of any field, any deletions and any sequence of next
   and skip_to: the scorer of a term query is a cursor on the documents with the term that are not deleted, in order, and sees their
   frequencies. *)
Theorem C76_term : forall i r del t f x os, pidx_open i r -> tir_used r t -> match f with Some n => pidx_field i n | None => True end ->
  exists b, tw_scorer r t f x = Some b /\ tsc_run r del b os = Some (s_run (hits i del f x) os).
Proof. exact term_scorer. Qed.
Print Assumptions C76_term.
(* three segments; in field 1, "a" is in 0, 4, 5, 9, 11 and 14, of which 4 and 11 are deleted *)
Definition c76_run (f : option Z) (x : list Z) (os : list sop) : option (list (option (Z * Z))) := match tw_scorer c39_r tir_open f x with Some b => tsc_run c39_r c39_del b os | None => None end.
Example C76_example : c76_run (Some 1) [97] [SNext; SNext; SSkip 6; SSkip 3; SNext; SNext] = Some [Some (0, 2); Some (5, 1); Some (9, 0); Some (14, 1); None; None] /\
  c76_run (Some 1) [97] [SSkip 11; SSkip 20; SNext] = Some [Some (14, 1); None; None] /\ c76_run (Some 1) [120] [SNext; SSkip 0] = Some [None; None] /\ c76_run None [97] [SNext; SSkip 0] = Some [None; None].
Proof. splits; vm_compute; reflexivity. Qed.
Example C76_met : pidx_open c39_i c39_r /\ tir_used c39_r tir_open /\ pidx_field c39_i 1.
Proof. split; [exact (proj1 c39_open)|]. split; [constructor|exact (proj2 c39_open)]. Qed.
(* more documents than the scorer reads at once *)
Definition c76_seg : pseg := mkPseg 2 4 200 [(0, [([97], map (fun k => (Z.of_nat k * 2, [1])) (seq 0 100)); ([98], [(7, [1; 2; 3])])])].
Definition c76_one (x : list Z) (os : list sop) : option (list (option (Z * Z))) :=
  match popen1 c76_seg with [g] => match tw_scorer (POne g) tir_open (Some 0) x with Some b => tsc_run (POne g) (fun d => d =? 66) b os | None => None end | _ => None end.
Example C76_one_example : c76_one [97] (repeat SNext 31 ++ [SSkip 61; SSkip 63; SSkip 65; SNext; SSkip 197; SNext; SNext]) =
  Some (map (fun k => Some (Z.of_nat k * 2, 1)) (seq 0 31) ++ [Some (62, 1); Some (64, 1); Some (68, 1); Some (70, 1); Some (198, 1); None; None]) /\ c76_one [98] [SNext; SNext] = Some [Some (7, 3); None].
Proof. split; vm_compute; reflexivity. Qed.

(* Any terms, in any order, also some that are not there or the same ones: the scorer of several terms is a cursor on the documents that
   have one of them, each once and in order, and its sum has the frequency of every term of the document. *)
Theorem C77_terms : forall i r del f ts, pidx_open i r -> pidx_field i f -> ts <> [] ->
  exists M, merge_of (map (hits i del (Some f)) ts) M /\
    exists sc, multi_tw_scorer r (Some f) ts = Some sc /\
      match sc with
      | None => M = []
      | Some (s, names) => forall os, Forall sop_ok os -> exists res, multi_run r del s os = Some res /\ Forall2 res_eq (map (option_map (named names)) res) (s_run M os)
      end.
Proof. exact multi_scorer. Qed.
Print Assumptions C77_terms.
Definition c77_run (ts : list (list Z)) (os : list sop) : option (list (option (Z * list (nat * Z)))) :=
  match multi_tw_scorer c39_r (Some 1) ts with Some (Some (s, names)) => match multi_run c39_r c39_del s os with Some l => Some (map (option_map (named names)) l) | None => None end | _ => None end.
Example C77_example : c77_run [[99]; [120]; [97]; [98]] [SNext; SNext; SSkip 6; SNext; SSkip 12; SNext] =
  Some [Some (0, [(2%nat, 2)]); Some (2, [(3%nat, 2)]); Some (9, [(2%nat, 0)]); Some (10, [(0%nat, 0)]); Some (14, [(2%nat, 1)]); None] /\
  c77_run [[97]; [97]; [99]] [SSkip 5; SNext; SNext] = Some [Some (5, [(1%nat, 1); (0%nat, 1)]); Some (9, [(0%nat, 0); (1%nat, 0)]); Some (10, [(2%nat, 0)])] /\
  multi_tw_scorer c39_r (Some 1) [[120]; [121]] = Some None.
Proof. splits; vm_compute; reflexivity. Qed.
Lemma c76_ok : pseg_ok c76_seg.
Proof. split; [cbn; lia|]. split; [cbn; lia|]. split; [cbn; lia|]. split; [cbn; lia|]. split; [|split; [cbn; lia|apply bound_of; vm_compute; reflexivity]]. cbn [v_fs c76_seg]. let l := eval vm_compute in (map (fun k => (Z.of_nat k * 2, [1])) (seq 0 100)) in change (map (fun k => (Z.of_nat k * 2, [1])) (seq 0 100)) with l. inv_tac. Qed.

(* A prefix query finds the documents that have a term with the prefix, if that are not more terms than it may hold: from the rewriting of
   the query to the documents. *)
Theorem C78_prefix : forall i r del f pre max bo, (1 <= max)%nat -> pidx_open i r -> pidx_field i f -> pre <> [] -> at_most max i f (fun t => exists u, t = pre ++ u) ->
  exists k, forall fuel, (k < fuel)%nat -> exists m, prq_rewrite fuel (rdr_of r) (Some f) pre max bo = Some (QMultiQ m) /\ finds i r del f m (fun t => exists u, t = pre ++ u).
Proof. exact prefix_finds. Qed.
Print Assumptions C78_prefix.
(* The same for a pattern with * and ? that starts with something else, of less than 255 bytes. *)
Theorem C78_wildcard : forall i r del f pat max bo, (1 <= max)%nat -> pidx_open i r -> pidx_field i f -> fst (split_wild pat) <> [] -> (length (fst (split_wild pat)) < 255)%nat -> snd (split_wild pat) <> [] -> at_most max i f (glob pat) ->
  exists k, forall fuel, (k < fuel)%nat -> exists m, wcq_rewrite fuel (rdr_of r) (Some f) pat max bo = Some (QMultiQ m) /\ finds i r del f m (glob pat).
Proof. exact wildcard_finds. Qed.
Print Assumptions C78_wildcard.
Definition c78_vs : list pseg := [mkPseg 2 3 3 [(1, [([97], [(0, [5; 3]); (2, [1])]); ([97; 98], [(1, [0])]); ([98; 99], [(2, [2])])])]; mkPseg 2 3 4 [(1, [([97; 98; 99], [(1, [7]); (3, [8; 9])]); ([98], [(0, [0])])])]].
Definition c78_r : prdr := PMany None (flat_map popen1 c78_vs) (pstarts 0 c78_vs).
Definition c78_run (q : option rq) : option (list (option (Z * list (nat * Z)))) :=
  do x <- q; match x with QMultiQ m => do l <- query_terms m; do sc <- multi_tw_scorer c78_r (Some 1) (map fst l); match sc with Some (s, names) => do res <- multi_run c78_r (fun d => d =? 2) s [SNext; SNext; SNext; SNext]; Some (map (option_map (named names)) res) | None => Some [] end | _ => None end.
Example C78_example : c78_run (prq_rewrite 9 (rdr_of c78_r) (Some 1) [97] 8 one) = Some [Some (0, [(2%nat, 2)]); Some (1, [(1%nat, 1)]); Some (4, [(0%nat, 1)]); Some (6, [(0%nat, 2)])] /\
  c78_run (wcq_rewrite 9 (rdr_of c78_r) (Some 1) [97; 42; 99] 8 one) = Some [Some (4, [(0%nat, 1)]); Some (6, [(0%nat, 2)]); None; None] /\ c78_run (wcq_rewrite 9 (rdr_of c78_r) (Some 1) [97; 63] 8 one) = Some [Some (1, [(0%nat, 1)]); None; None; None] /\
  c78_run (prq_rewrite 9 (rdr_of c78_r) (Some 1) [98; 99] 8 one) = Some [None; None; None; None].
Proof. splits; vm_compute; reflexivity. Qed.
Example C78_met : pidx_open (PIMany None c78_vs) c78_r /\ pidx_field (PIMany None c78_vs) 1 /\ at_most 3 (PIMany None c78_vs) 1 (fun t => exists u, t = [97] ++ u).
Proof.
  split; [split; [reflexivity|]; split; [reflexivity|]; split; [|split; [apply popen1_ok; vm_compute; reflexivity|exact Logic.I]]|].
  - unfold c78_vs. constructor; [|constructor; [|constructor]]; (split; [cbn; lia|split; [cbn; lia|split; [cbn; lia|split; [cbn; lia|split; [|split; [cbn; lia|apply bound_of; vm_compute; reflexivity]]]]]]; cbn [v_fs]; inv_tac).
  - split; [exact Logic.I|]. intros ts HN H. assert (HI : incl ts [[97]; [97; 98]; [97; 98; 99]]).
    { intros t Ht. destruct (H t Ht) as ((k & v & m & Hv & Hm & _ & Hin) & (u & ->)). cbn [fnum] in Hm. apply some_inj in Hm. subst m. destruct k as [|[|k]]; cbn in Hv; [| |destruct k; discriminate]; apply some_inj in Hv; subst v; cbn in Hin |- *; intuition congruence. }
    pose proof (NoDup_incl_length HN HI) as G. exact G.
Qed.
