(* Model of fuzzy queries, c/src/q_fuzzy.c 21-137 and 174-227 fuzq_rewrite, on the term enumerators and the MultiTermQuery of Expand_Model.
   Floats: (int)((1.0 - min_sim) * x) is the parameter calc; a similarity 1.0 - d / l is kept as the pair of d and l, which the parameter
   sim places in the order of the floats.  None: undefined behaviour. *)
From Verif Require Import Util Strcmp Dict_Model PQueue_Model Multi_Model Mte_Model Expand_Model.
Open Scope Z_scope.

(* 0.0f, or 1.0f - (float)d / (float)l *)
Inductive fscore := Zero | Sim (d l : Z).
(* helper.h min2, min3 *)
Definition min3 (a b c : Z) : Z := if a <? b then (if a <? c then a else c) else (if b <? c then b else c).
Section FUZZY.
  Variable calc : Z -> Z.
  Record fuzq := mkFz { z_text : list Z; z_pre : Z; z_max : list Z }.
  (* 30-33 fuzq_calculate_max_distance *)
  Definition calc_max (text_len pre_len m : Z) : Z := calc (Z.min text_len m + pre_len).
  (* 41-47 fuzq_initialize_max_distances: TYPICAL_LONGEST_WORD is 20 *)
  Definition LONGEST : nat := 20.
  Definition fuzq_new (text : list Z) (pre_len : Z) : fuzq := mkFz text pre_len (map (fun i => calc_max (Z.of_nat (length text)) pre_len (Z.of_nat i)) (seq 0 LONGEST)).
  (* 53-58 fuzq_get_max_distance *)
  Definition get_max (q : fuzq) (m : nat) : option Z := if (m <? LONGEST)%nat then nth_error (z_max q) m else Some (calc_max (Z.of_nat (length (z_text q))) (z_pre q) (Z.of_nat m)).
  (* 100-108: d_curr[1 ..] from d_prev[1 ..] = ups, diag = d_prev[j], left = d_curr[j] *)
  Fixpoint row (c : Z) (text ups : list Z) (diag left : Z) : list Z :=
    match text, ups with
    | x :: text', up :: ups' =>
        let v := if c =? x then min3 (up + 1) (left + 1) diag else min3 up left diag + 1 in
        v :: row c text' ups' up v
    | _, _ => []
    end.
  (* 90-112: d_prev, i; None: pruned *)
  Fixpoint rows (maxd : Z) (text target : list Z) (i : Z) (d : list Z) : option (list Z) :=
    match target with
    | [] => Some d
    | c :: t =>
        match d with
        | [] => None
        | d0 :: ups =>
            let r := (i + 1) :: row c text ups d0 (i + 1) in
            if forallb (fun v => maxd <? v) r then None else rows maxd text t (i + 1) r
        end
    end.
  (* 67-119 fuzq_score_mn *)
  Definition score_mn (q : fuzq) (target : list Z) : option fscore :=
    let m := Z.of_nat (length target) in
    let n := Z.of_nat (length (z_text q)) in
    do maxd <- get_max q (length target);
    if maxd <? Z.abs (m - n) then Some Zero
    else match rows maxd (z_text q) target 0 (map Z.of_nat (seq 0 (S (length (z_text q))))) with
         | None => Some Zero
         | Some d => do v <- nth_error d (length (z_text q)); Some (Sim v (z_pre q + Z.min n m))
         end.
  (* 127-137 fuzq_score *)
  Definition fuzq_score (q : fuzq) (target : list Z) : option fscore :=
    let m := Z.of_nat (length target) in
    let n := Z.of_nat (length (z_text q)) in
    if (m =? 0) || (n =? 0) then (if z_pre q =? 0 then Some Zero else Some (Sim (m + n) (z_pre q)))
    else score_mn q target.

  (* ---------- 174-227 fuzq_rewrite *)
  Variable sim : fscore -> Z.
  (* ir->terms with curr_term *)
  Definition all_terms (r : rdr) (f : Z) : option (list Z * tenum) :=
    match r with
    | ROne s => let e := ste_set_field (fst s) (snd s) ste_new f in Some (e_term e, EOne e)
    | RMany mp srcs => do x <- mte_new srcs mp f None; Some (q_term (snd x), EMany (snd x))
    end.
  Fixpoint fz_loop (fuel : nat) (r : rdr) (pre : list Z) (z : fuzq) (term : list Z) (e : tenum) (q : mtq) : option mtq :=
    match fuel with
    | O => None
    | S k =>
        if starts_with pre term then
          do s <- fuzq_score z (skipn (length pre) term);
          do q1 <- add_term_boost q term (sim s);
          do x <- te_next r e;
          match fst x with None => Some q1 | Some t => fz_loop k r pre z t (snd x) q1 end
        else Some q
    end.
  (* the boost of the new queries is 1.0; bq_new(true) for a field that does not exist is an empty MultiTermQuery here *)
  Definition fuzq_rewrite (fuel : nat) (r : rdr) (field : option Z) (term : list Z) (pre_len : nat) (min_sim : Z) (max : nat) : option rq :=
    match field with
    | None => Some (QMultiQ (mtq_new max min_sim))
    | Some f =>
        if (length term <=? pre_len)%nat then Some (QTermQ term one)
        else
          let pre := firstn pre_len term in
          do x <- (if (0 <? pre_len)%nat then terms_from r f pre else all_terms r f);
          do q <- fz_loop fuel r pre (fuzq_new (skipn pre_len term) (Z.of_nat pre_len)) (fst x) (snd x) (mtq_new max min_sim);
          Some (QMultiQ q)
    end.
End FUZZY.
