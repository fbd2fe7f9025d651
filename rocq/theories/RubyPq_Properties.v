(* C126, C127: Ferret::Utils::PriorityQueue. *)
From Verif Require Import Util PQueue_Model PQueue_Spec PQueue_Proofs RubyPq_Model RubyPq_Spec RubyPq_Proofs.
From Coq Require Import Sorting.Permutation.
Open Scope nat_scope.

(* the order of the numbers, or the one upside down, which a block asks for *)
Definition ex_lt (p : option bool) (a b : nat) : bool := match p with Some true => b <? a | _ => a <? b end.
Definition ex_less (p : option bool) (t : nat) (a b : nat) : option bool := Some (ex_lt p a b).

(* All queues, clones and what they are asked, in any order: what is returned is what the multisets say.  Orders that come with a queue are kept alive by the program, or there are none. *)
Theorem C126_queues : forall (A P : Type) (less : option P -> nat -> A -> A -> option bool) (lt : option P -> A -> A -> bool) os, (forall p t a b, less p t a b = Some (lt p a b)) -> (forall p, preorder A (lt p)) ->
  Forall (heard A P) os -> Forall (fun o => ~ collects A P o) os \/ Forall (plain A P) os -> known A P 0 os -> exists rs w ms, run A P less ([], 0) os = Some (rs, w) /\ mays A P lt [] os rs ms.
Proof. exact good_order. Qed.
Print Assumptions C126_queues.
(* four fit, the least are let go; a clone upside down is not: it has the order of its original *)
Example C126_queues_example : exists w, run nat bool ex_less ([], 0)
  [New (Capacity 4) false None; Insert 0 7; Insert 0 3; Insert 0 9; Insert 0 1; Insert 0 8; Insert 0 2; Clone 0; Top 0; Adjust 0 (fun x => x + 10); Collect 0; Pop 0; Size 0; Size 1; Pop 1; Pop 1; Pop 1; Pop 1; Pop 1;
   New (Options (Some 2%Z) (Some true) None) false None; Insert 2 4; Insert 2 6; Insert 2 5; Pop 2; Pop 2; Capa 2; Clear 0; Top 0; New (Capacity (-1)) false None]
  = Some ([Queue 0; Self; Self; Self; Self; Self; Self; Queue 1; Elem (Some 3); Self; Self; Elem (Some 7); Number 3; Number 4; Elem (Some 3); Elem (Some 7); Elem (Some 8); Elem (Some 9); Elem None;
   Queue 2; Self; Self; Self; Elem (Some 5); Elem (Some 4); Number 2; Self; Elem None; IndexError], w).
Proof. eexists. vm_compute. reflexivity. Qed.

(* So the elements are popped in order, whatever happened before. *)
Theorem C126_sorted : forall (A P : Type) (less : option P -> nat -> A -> A -> option bool) (lt : option P -> A -> A -> bool) os i rs x y w, (forall p t a b, less p t a b = Some (lt p a b)) -> (forall p, preorder A (lt p)) ->
  Forall (heard A P) (os ++ [Pop i; Pop i]) -> Forall (fun o => ~ collects A P o) (os ++ [Pop i; Pop i]) -> known A P 0 (os ++ [Pop i; Pop i]) ->
  run A P less ([], 0) (os ++ [Pop i; Pop i]) = Some (rs ++ [Elem (Some x); Elem (Some y)], w) -> exists m s, mays A P lt [] os rs s /\ nth_error s i = Some m /\ lt (m_by m) y x = false.
Proof.
  intros A P less lt os i rs x y w H1 H2 H3 H4 H5 E. destruct (good_order A P less lt (os ++ [Pop i; Pop i]) H1 H2 H3 (or_introl H4) H5) as (rs' & w' & ms & E' & M). rewrite E in E'. apply some_inj in E'. inversion E'. subst rs'. eapply pops_sorted; eauto.
Qed.
Print Assumptions C126_sorted.
Example C126_sorted_example : exists w, run nat bool ex_less ([], 0) ([New (Capacity 9) false (Some true); Insert 0 4; Insert 0 9; Insert 0 6] ++ [Pop 0; Pop 0]) = Some ([Queue 0; Self; Self; Self] ++ [Elem (Some 9); Elem (Some 6)], w).
Proof. eexists. vm_compute. reflexivity. Qed.

(* However the elements compare, with exceptions and contradictions: the heap is not left, no cell without an element is compared, only elements that were put in come out, and no queue gets larger than its capacity. *)
Theorem C127_any : forall (A P : Type) (less : option P -> nat -> A -> A -> option bool) (Q : A -> Prop) os, Forall (fun o => ~ collects A P o) os -> Forall (puts A P Q) os -> known A P 0 os ->
  exists rs qs t, run A P less ([], 0) os = Some (rs, (qs, t)) /\ Forall (gives A Q) rs /\ Forall (fun q => q_size q <= q_capa q) qs.
Proof. exact any_order. Qed.
Print Assumptions C127_any.
(* the second comparison and all after the fifth raise, the others say yes *)
Example C127_any_example : exists w, run nat bool (fun _ t _ _ => if (t =? 1) || (4 <? t) then None else Some true) ([], 0) [New (Capacity 3) false None; Insert 0 5; Insert 0 7; Insert 0 6; Insert 0 4; Pop 0; Pop 0; Pop 0]
  = Some ([Queue 0; Self; Self; Raised; Self; Raised; Elem (Some 4); Elem (Some 5)], w).
Proof. eexists. vm_compute. reflexivity. Qed.

(* A comparison that raises loses the element that was put in and doubles another: 3 does not compare with 2. *)
Definition odd (p : option bool) (t a b : nat) : option bool := if (a =? 3) && (b =? 2) then None else Some (a <? b).
Theorem C127_raise_refuted : exists w, run nat bool odd ([], 0) [New (Capacity 9) false None; Insert 0 2; Insert 0 4; Insert 0 6; Insert 0 3; Pop 0; Pop 0; Pop 0; Pop 0; Pop 0]
  = Some ([Queue 0; Self; Self; Self; Raised; Elem (Some 2); Elem (Some 4); Elem (Some 4); Elem (Some 6); Elem None], w).
Proof. eexists. vm_compute. reflexivity. Qed.
Print Assumptions C127_raise_refuted.

(* A block without an argument is not asked. *)
Theorem C127_block_refuted : forall (A P : Type) (b : P), frb_pq_init A P Nothing false (Some b) = frb_pq_init A P Nothing false None /\ frb_pq_init A P (Capacity 32) false (Some b) <> frb_pq_init A P (Capacity 32) false None.
Proof. intros. split; [reflexivity|discriminate]. Qed.
Print Assumptions C127_block_refuted.
Example C127_block_example : exists w, run nat bool ex_less ([], 0) [New Nothing false (Some true); Insert 0 1; Insert 0 2; Pop 0; New (Capacity 32) false (Some true); Insert 1 1; Insert 1 2; Pop 1]
  = Some ([Queue 0; Self; Self; Elem (Some 1); Queue 1; Self; Self; Elem (Some 2)], w).
Proof. eexists. vm_compute. reflexivity. Qed.

(* Nor is the option of the documentation, :less_than_proc. *)
Theorem C127_option_refuted : forall (A P : Type) k l (p : P) b, frb_pq_init A P (Options k l (Some p)) false b = frb_pq_init A P (Options k l None) false b.
Proof. intros. destruct k; reflexivity. Qed.
Print Assumptions C127_option_refuted.
Example C127_option_example : exists w, run nat bool ex_less ([], 0) [New (Options None None (Some true)) false None; Insert 0 1; Insert 0 2; Pop 0; New (Options None (Some true) None) false None; Insert 1 1; Insert 1 2; Pop 1]
  = Some ([Queue 0; Self; Self; Elem (Some 1); Queue 1; Self; Self; Elem (Some 2)], w).
Proof. eexists. vm_compute. reflexivity. Qed.

(* The queue does not keep its block: once it is collected, any two elements put in are compared by what was freed. *)
Theorem C127_gc_refuted : forall (A P : Type) (less : option P -> nat -> A -> A -> option bool) (p : P) (a b : A), run A P less ([], 0) [New (Capacity 9) false (Some p); Collect 0; Insert 0 a; Insert 0 b] = None.
Proof. intros. reflexivity. Qed.
Print Assumptions C127_gc_refuted.
Example C127_gc_example : exists w, run nat bool ex_less ([], 0) [New (Capacity 9) false None; Collect 0; Insert 0 4; Insert 0 3; Pop 0] = Some ([Queue 0; Self; Self; Self; Elem (Some 3)], w).
Proof. eexists. vm_compute. reflexivity. Qed.
