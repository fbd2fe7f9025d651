(* What is found in an index after everything that was done to it: the documents are numbered, a number stands for a document or for one
   that was deleted. *)
From Verif Require Import Util Codec_Model Strcmp Seg_Model Dict_Model Token_Model Post_Model Post_Spec Multi_Model Mte_Model Mtde_Model Mtde_Spec Expand_Model Range_Model Range_Spec Merge_Model Merge_Spec Fields_Model Fields_Spec Invert_Model Invert_Spec Iw_Model Iw_Spec Tsc_Model Tsc_Spec Find_Model.
Open Scope Z_scope.

(* the documents that are there *)
Definition somes {A} (l : list (option A)) : list A := flat_map (fun x => match x with Some d => [d] | None => [] end) l.

Section SPEC.
  Variable ana : list Z -> list Z -> list token.
  Variable unzip : list Z -> option (list Z).
  Variable fuel : nat.
  Variable max : Z.
  Variable F : field_infos.

  (* the documents with a term in field number n, and how often *)
  Fixpoint found (n : nat) (t : list Z) (i : Z) (slots : list (option document)) : list (Z * Z) :=
    match slots with
    | [] => []
    | None :: r => found n t (i + 1) r
    | Some d :: r => match at_ t (occs_in ana max F n d) with [] => found n t (i + 1) r | ps => (i, Z.of_nat (length ps)) :: found n t (i + 1) r end
    end.
  (* a document with a term that satisfies P *)
  Definition doc_with (n : nat) (P : list Z -> Prop) (d : document) : Prop := exists o, In o (occs_in ana max F n d) /\ P (o_text o).
  (* a reader on the segments: its documents, and every search for a term, whatever the reader was used for before *)
  Definition answers (segs : list wseg) (slots : list (option document)) : Prop :=
    rd_max_doc segs = Z.of_nat (length slots) /\
    (forall k x, nth_error slots k = Some x -> rd_is_deleted segs (Z.of_nat k) = match x with Some _ => false | None => true end /\
       rd_get_doc unzip (S fuel) F segs (Z.of_nat k) = Some (option_map (stored_view F) x)) /\
    (forall n tr t os, tir_used (reader_of segs) tr ->
       exists b, tw_scorer (reader_of segs) tr (Some (Z.of_nat n)) t = Some b /\ tsc_run (reader_of segs) (rd_is_deleted segs) b os = Some (s_run (found n t 0 slots) os)).
  (* the scorer of a multi term query with the best terms visits exactly the documents with a term that satisfies P *)
  Definition visits (segs : list wseg) (slots : list (option document)) (n : nat) (m : mtq) (P : list Z -> Prop) : Prop :=
    exists M : list (Z * list (nat * Z)), StronglySorted (fun x y => fst x < fst y) M /\
      (forall d, In d (map fst M) <-> exists k x, d = Z.of_nat k /\ nth_error slots k = Some (Some x) /\ doc_with n P x) /\
      exists l sc, query_terms m = Some l /\ multi_tw_scorer (reader_of segs) (Some (Z.of_nat n)) (map fst l) = Some sc /\
        match sc with
        | None => M = []
        | Some (s, _) => forall os, Forall sop_ok os -> exists res, multi_run (reader_of segs) (rd_is_deleted segs) s os = Some res /\ Forall2 same_docs res (s_run M os)
        end.
  (* at most k different terms of the field satisfy P *)
  Definition few (k : nat) (n : nat) (docs : list document) (P : list Z -> Prop) : Prop :=
    forall ts, NoDup ts -> (forall t, In t ts -> P t /\ exists d, In d docs /\ doc_with n (eq t) d) -> (length ts <= k)%nat.
End SPEC.
