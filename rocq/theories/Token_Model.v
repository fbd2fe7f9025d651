(* Model of parts of c/src/analysis.c: the byte tokenizers, the stop filter, the hyphen filter and the positions dw_invert_field
   (c/src/index.c) gives to tokens.  A text is the list of its bytes before the terminating NUL; a stream is the list of the tokens that
   its next function will still return, except where the code keeps state of its own.  The Token structure which the C functions
   share and overwrite is passed by value: every function here sets all of the fields it returns. *)
From Verif Require Import Util.
Open Scope nat_scope.

Record token := mkTok { t_text : list Z; t_start : nat; t_end : nat; t_inc : Z }.
Definition MAX_WORD_SIZE : nat := 255.

(* analysis.c:17-30 tk_set *)
Definition tk_set (text : list Z) (start end_ : nat) (inc : Z) : token :=
  let tlen := if MAX_WORD_SIZE <=? length text then MAX_WORD_SIZE - 1 else length text in
  mkTok (firstn tlen text) start end_ inc.
Definition slice (s : list Z) (a b : nat) : list Z := firstn (b - a) (skipn a s).

(* while ( *t != '\0' && p( *t)) t++ *)
Fixpoint skip_while (p : Z -> bool) (s : list Z) (t : nat) : nat :=
  match s with c :: s' => if p c then skip_while p s' (S t) else t | [] => t end.
(* analysis.c:280-303 wst_next (tok c = not isspace) and analysis.c:419-440 lt_next (tok c = isalpha): the next token and ts->t *)
Definition run_next (tok : Z -> bool) (text : list Z) (t : nat) : option (token * nat) :=
  let st := skip_while (fun c => negb (tok c)) (skipn t text) t in
  if st <? length text then
    let en := skip_while tok (skipn st text) st in
    Some (tk_set (slice text st en) st en 1, en)
  else None.
(* calling next until it returns NULL *)
Fixpoint run_all (fuel : nat) (tok : Z -> bool) (text : list Z) (t : nat) : list token :=
  match fuel with
  | O => []
  | S f => match run_next tok text t with Some (k, t') => k :: run_all f tok text t' | None => [] end
  end.
Definition tokenize (tok : Z -> bool) (text : list Z) : list token := run_all (S (length text)) tok text 0.
(* analysis.c:247-259 nt_next *)
Definition non_tokenize (text : list Z) : list token := [tk_set text 0 (length text) 1].
(* <ctype.h> in the C locale *)
Definition isspace (c : Z) : bool := (c =? 32)%Z || ((9 <=? c) && (c <=? 13))%Z.
Definition isalpha (c : Z) : bool := ((65 <=? c) && (c <=? 90) || (97 <=? c) && (c <=? 122))%Z.

(* analysis.c:1136-1154 sf_next *)
Fixpoint sf_next_loop (stop : list Z -> bool) (sub : list token) (inc : Z) : option (token * list token) :=
  match sub with
  | [] => None
  | k :: sub' => if stop (t_text k) then sf_next_loop stop sub' (inc + t_inc k)%Z
                 else Some (mkTok (t_text k) (t_start k) (t_end k) (t_inc k + inc)%Z, sub')
  end.
Definition sf_next (stop : list Z -> bool) (sub : list token) := sf_next_loop stop sub 0.
Fixpoint sf_all (fuel : nat) (stop : list Z -> bool) (sub : list token) : list token :=
  match fuel with
  | O => []
  | S f => match sf_next stop sub with Some (k, sub') => k :: sf_all f stop sub' | None => [] end
  end.
Definition stop_filter (stop : list Z -> bool) (sub : list token) : list token := sf_all (S (length sub)) stop sub.

(* HyphenFilter (analysis.h:117-125): the buffer text, in which hyphens have become NULs, start, pos and len = length of the buffer *)
Record hyph := mkHf { h_buf : list Z; h_start : nat; h_pos : nat; h_sub : list token }.
Definition hf_new (sub : list token) : hyph := mkHf [] 0 0 sub.
(* strlen(hf->text + pos) *)
Definition strlen (s : list Z) : nat := skip_while (fun c => negb (c =? 0)%Z) s 0.
(* analysis.c:1285-1299: is there a hyphen, and nothing but letters and hyphens, behind the first byte *)
Fixpoint hf_scan (s : list Z) (seen : bool) : bool :=
  match s with
  | [] => seen
  | c :: s' => if (c =? 45)%Z then hf_scan s' true else if isalpha c then hf_scan s' seen else false
  end.
(* analysis.c:1271-1328 hf_next *)
Definition hf_next (hf : hyph) : option (token * hyph) :=
  if h_pos hf <? length (h_buf hf) then
    let pos := h_pos hf in
    let len := strlen (skipn pos (h_buf hf)) in
    Some (mkTok (slice (h_buf hf) pos (pos + len)) (h_start hf + pos) (h_start hf + pos + len) (if pos =? 0 then 0 else 1),
          mkHf (h_buf hf) (h_start hf) (pos + len + 1) (h_sub hf))
  else
    match h_sub hf with
    | [] => None
    | k :: sub =>
        if hf_scan (tl (t_text k)) false then
          Some (mkTok (filter (fun c => negb (c =? 45)%Z) (t_text k)) (t_start k) (t_end k) (t_inc k),
                mkHf (map (fun c => if (c =? 45)%Z then 0%Z else c) (t_text k)) (t_start k) 0 sub)
        else Some (k, mkHf (h_buf hf) (h_start hf) (h_pos hf) sub)
    end.
Fixpoint hf_all (fuel : nat) (hf : hyph) : list token :=
  match fuel with
  | O => []
  | S f => match hf_next hf with Some (k, hf') => k :: hf_all f hf' | None => [] end
  end.
(* the buffers hold at most MAX_WORD_SIZE bytes, each step consumes one of them or a token *)
Definition hyphen_filter (sub : list token) : list token := hf_all (S (length sub * (MAX_WORD_SIZE + 2))) (hf_new sub).
(* analysis.c:1090-1094 filter_reset: only the underlying stream is reset *)
Definition hf_reset (hf : hyph) (sub : list token) : hyph := mkHf (h_buf hf) (h_start hf) (h_pos hf) sub.

(* index.c:5579-5616 dw_invert_field, the branch without offsets: the position of every token of every value of the field
   (fewer than max_field_length tokens) *)
Fixpoint field_positions (pos : Z) (ks : list token) : Z * list (token * Z) :=
  match ks with
  | [] => (pos, [])
  | k :: t => let p := (pos + t_inc k)%Z in let '(q, r) := field_positions p t in (q, (k, p) :: r)
  end.
Fixpoint invert_positions (pos : Z) (values : list (list token)) : list (token * Z) :=
  match values with
  | [] => []
  | v :: t => let '(q, r) := field_positions pos v in r ++ invert_positions q t
  end.
