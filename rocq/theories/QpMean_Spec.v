(* What parsing a string is expected to answer. *)
From Verif Require Import Util QpLex_Model QpAct_Model QpClean_Model Qp_Model Qp_Spec QpAst_Spec.
Open Scope Z_scope.

(* qp_parse ends with an answer and leaves the parser as p' *)
Definition answers (cf : qconf) (p : qparser) (s : list Z) (a : answer) (p' : qparser) : Prop :=
  exists k, forall m, qp_parse cf (k + m) p s = Some (a, p').
(* the string the grammar is applied to *)
Definition parsed (cf : qconf) (s : list Z) : list Z := if q_clean cf then clean_str s else s.
Definition toks_of (cf : qconf) (s : list Z) : list tok := tokens (q_kw cf) (parsed cf s).
(* between two queries the stack of fields is the default fields alone *)
Definition ready (cf : qconf) (p : qparser) : Prop := p_fs p = [Some (q_def cf)].
(* words of less than 254 bytes, and not more words and marks than fit the stack of the parser *)
Definition moderate (cf : qconf) (s : list Z) : Prop :=
  Forall short_tok (toks_of cf s) /\ (2 * length (toks_of cf s) + 3 <= YYMAXDEPTH)%nat.
(* the string is a way to write t *)
Definition writes (cf : qconf) (s : list Z) (t : top) : Prop := top_wf t /\ toks_of cf s = top_toks t.
(* what t means for the default fields *)
Definition value (cf : qconf) (s : list Z) (t : top) : ev (option qry) := top_eval cf (length (parsed cf s)) (q_def cf) t.
Definition query_of (o : option qry) : qry := match o with Some q => q | None => bq_new [] end.
(* the string taken as one term *)
Definition as_term (cf : qconf) (s : list Z) : fres := flds cf (simple (fun f => get_term_q cf f (parsed cf s))) (Some (q_def cf)) tt.

(* ---------- strings that are safe to parse *)
Section NICE.
  Variable cf : qconf.
  (* a query for each of the fields is not too many *)
  Definition small (F : list (list Z)) : Prop := Z.of_nat (length F) <= q_max cf.
  (* the bounds of a range, also after they are put in lower case *)
  Definition ordered (a b : option (list Z)) : Prop := reversed cf a b = false /\ reversed cf (option_map (q_lower cf) a) (option_map (q_lower cf) b) = false.
  (* what makes the code go wrong: <>| in a phrase, a range from the greater to the smaller bound, a slop that is no number *)
  Definition head_ok (ts : list tok) : Prop :=
    match ts with
    | TGt :: TBar :: _ => False
    | (TLb | TLc) :: TWord x :: TWord y :: _ => ordered (Some x) (Some y)
    | TQuote :: TTilde :: TWord y :: _ => q_scand cf y <> None
    | _ => True
    end.
  Fixpoint plain (ts : list tok) : Prop := match ts with [] => True | _ :: r => head_ok ts /\ plain r end.
  Definition nice (ts : list tok) : Prop := plain ts /\ Forall short_tok ts /\ Z.of_nat (length ts) <= q_max cf.
End NICE.
(* a parser for the Ruby library or for C: fields are known to be tokenized or not, lower case is no longer and is final, few fields *)
Record sane (cf : qconf) : Prop := {
  sane_tok : q_tok cf <> None;
  sane_len : forall w, (length (q_lower cf w) <= length w)%nat;
  sane_idem : forall w, q_lower cf (q_lower cf w) = q_lower cf w;
  sane_all : small cf (q_all cf);
  sane_def : small cf (q_def cf) }.
