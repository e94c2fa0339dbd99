(** * Error reporting: ErrorInfo (peglib.h 823-880, 3510-3598) and
    resolve_capture_placeholders (3755-3790). *)
From Verif Require Import Base Utf8 Escape TrieM LineInfo Ope Ctx.

(** std::isspace / std::ispunct on an unsigned char in the "C" locale. *)
Definition isspace (b : byte) : bool :=
  let n := bN b in ((9 <=? n) && (n <=? 13) || (n =? 32))%N.
Definition ispunct (b : byte) : bool :=
  let n := bN b in
  ((33 <=? n) && (n <=? 47) || (58 <=? n) && (n <=? 64)
   || (91 <=? n) && (n <=? 96) || (123 <=? n) && (n <=? 126))%N.

(** Pointer comparisons with nullptr below every position. *)
Definition ole (a : option nat) (p : nat) : bool :=
  match a with None => true | Some x => x <=? p end.
Definition olt (a : option nat) (p : nat) : bool :=
  match a with None => true | Some x => x <? p end.

Definition obytes_eqb (a b : option bytes) : bool :=
  match a, b with
  | None, None => true
  | Some x, Some y => bytes_eqb x y
  | _, _ => false
  end.
Definition orid_eqb (a b : option rid) : bool :=
  match a, b with
  | None, None => true
  | Some x, Some y => x =? y
  | _, _ => false
  end.

(** ErrorInfo::add, 831-836.  Literal pointers are compared by text here
    (simplification: two literal nodes with equal text count as one). *)
Definition err_add (lit : option bytes) (r : option rid) (e : errinfo) : errinfo :=
  if existsb (fun p => obytes_eqb (fst p) lit && orid_eqb (snd p) r) (ei_exp e) then e
  else {| ei_pos := ei_pos e; ei_exp := ei_exp e ++ [(lit, r)]; ei_mpos := ei_mpos e;
          ei_msg := ei_msg e; ei_label := ei_label e; ei_last := ei_last e; ei_keep := ei_keep e |}.

(** Move the error position and forget the expected tokens. *)
Definition err_move (p : nat) (e : errinfo) : errinfo :=
  {| ei_pos := Some p; ei_exp := []; ei_mpos := ei_mpos e; ei_msg := ei_msg e;
     ei_label := ei_label e; ei_last := ei_last e; ei_keep := ei_keep e |}.
Definition err_keep (k : bool) (e : errinfo) : errinfo :=
  {| ei_pos := ei_pos e; ei_exp := ei_exp e; ei_mpos := ei_mpos e; ei_msg := ei_msg e;
     ei_label := ei_label e; ei_last := ei_last e; ei_keep := k |}.
Definition err_message (p : nat) (msg : bytes) (label : option bytes) (e : errinfo) : errinfo :=
  {| ei_pos := ei_pos e; ei_exp := ei_exp e; ei_mpos := Some p; ei_msg := msg;
     ei_label := match label with Some l => l | None => ei_label e end;
     ei_last := ei_last e; ei_keep := ei_keep e |}.

(** ErrorInfo::clear, 824-829. *)
Definition err_clear (e : errinfo) : errinfo :=
  {| ei_pos := None; ei_exp := []; ei_mpos := None; ei_msg := []; ei_label := ei_label e;
     ei_last := ei_last e; ei_keep := ei_keep e |}.

(** heuristic_error_token, 845-868.  Run of token characters, then at most 32
    code points of it. *)
Fixpoint token_run (s : bytes) : nat :=
  match s with
  | [] => 0
  | c :: s' => if ispunct c || isspace c then 0 else S (token_run s')
  end.
Fixpoint clip (count : nat) (s : bytes) (i j : nat) : outcome nat :=
  match count with
  | O => Ok j
  | S count' =>
    if j <? i then
      let* n := codepoint_length (from s j) (i - j) in
      clip count' s i (j + n)
    else Ok j
  end.
Definition heuristic_error_token (s : bytes) (pos : nat) : outcome bytes :=
  match from s pos with
  | [] => Ok []
  | c :: rest =>
    let i := if ispunct c || isspace c then 1 else S (token_run rest) in
    let* j := clip 32 (from s pos) i 0 in
    Ok (escape_characters (firstn j (from s pos)))
  end.

(** replace_all, 870-878: leftmost occurrences, not rescanning the inserted
    text ([pat] is never empty). *)
Fixpoint replace_all_loop (skip : nat) (str pat repl : bytes) : bytes :=
  match str with
  | [] => []
  | c :: str' =>
    match skip with
    | S k => replace_all_loop k str' pat repl
    | O => if bytes_eqb (firstn (List.length pat) str) pat
           then repl ++ replace_all_loop (List.length pat - 1) str' pat repl
           else c :: replace_all_loop 0 str' pat repl
    end
  end.
Definition replace_all (str pat repl : bytes) : bytes := replace_all_loop 0 str pat repl.

(** A literal appended to a message as a C string stops at its first NUL. *)
Fixpoint cstr (s : bytes) : bytes :=
  match s with
  | [] => []
  | c :: s' => if beq c x00 then [] else c :: cstr s'
  end.

Definition rule_name (g : grammar) (r : rid) : bytes :=
  match nth_error g r with Some d => r_name d | None => [] end.

(** Loop over the expected tokens, 3557-3583.  State: (message, first_item,
    label, literals, rules). *)
Definition expect_step (g : grammar) (st : bytes * bool * bytes * list bytes * list bytes)
  (t : option bytes * option rid) : bytes * bool * bytes * list bytes * list bytes :=
  let '(msg, first, label, lits, rules) := st in
  let hidden := match snd t with
                | Some r => match rule_name g r with x5f :: _ => true | _ => false end
                | None => false end in
  if hidden then st
  else
    let msg := msg ++ (if first then bs ", expecting " else bs ", ") in
    match fst t with
    | Some l => (msg ++ bs "'" ++ cstr l ++ bs "'", false, label, lits ++ [cstr l], rules)
    | None =>
      let n := match snd t with Some r => rule_name g r | None => [] end in
      (msg ++ bs "<" ++ n ++ bs ">", false, match label with [] => n | _ => label end,
       lits, rules ++ [n])
    end.

(** ErrorInfo::output_log, 3510-3598, with a log or reporter attached: the new
    error info and the report, if one is sent. *)
Definition output_log (g : grammar) (s : bytes) (e : errinfo) : outcome (errinfo * option report) :=
  match ei_mpos e with
  | Some mp =>
    if olt (ei_last e) mp then
      let e' := {| ei_pos := ei_pos e; ei_exp := ei_exp e; ei_mpos := ei_mpos e; ei_msg := ei_msg e;
                   ei_label := ei_label e; ei_last := Some mp; ei_keep := ei_keep e |} in
      let* (ln, col) := line_info s mp in
      let* tok := heuristic_error_token s mp in
      let* msg := (match tok with
                   | [] => Ok (ei_msg e)
                   | _ => let* n := codepoint_length tok (List.length tok) in
                          Ok (replace_all (replace_all (ei_msg e) (bs "%t") tok) (bs "%c") (firstn n tok))
                   end) in
      Ok (e', Some {| rp_line := ln; rp_col := col; rp_position := mp; rp_unexpected := tok;
                      rp_literals := []; rp_rules := []; rp_message := msg; rp_text := msg;
                      rp_label := ei_label e |})
    else Ok (e, None)
  | None =>
    match ei_pos e with
    | Some p =>
      if olt (ei_last e) p then
        let* (ln, col) := line_info s p in
        let* (txt, tok, label, lits, rules) :=
          (match ei_exp e with
           | [] => Ok (bs "syntax error.", [], ei_label e, [], [])
           | _ =>
             let* tok := heuristic_error_token s p in
             let msg := match tok with
                        | [] => bs "syntax error"
                        | _ => bs "syntax error" ++ bs ", unexpected '" ++ tok ++ bs "'" end in
             let '(msg, _, label, lits, rules) :=
               fold_left (expect_step g) (ei_exp e) (msg, true, ei_label e, [], []) in
             Ok (msg ++ bs ".", tok, label, lits, rules)
           end) in
        let e' := {| ei_pos := ei_pos e; ei_exp := ei_exp e; ei_mpos := ei_mpos e; ei_msg := ei_msg e;
                     ei_label := label; ei_last := Some p; ei_keep := ei_keep e |} in
        Ok (e', Some {| rp_line := ln; rp_col := col; rp_position := p; rp_unexpected := tok;
                        rp_literals := lits; rp_rules := rules; rp_message := []; rp_text := txt;
                        rp_label := label |})
      else Ok (e, None)
    | None => Ok (e, None)
    end
  end.

(** resolve_capture_placeholders, 3755-3790. *)
Fixpoint trim_front (s : bytes) : bytes :=
  match s with c :: s' => if isspace c then trim_front s' else s | [] => [] end.
Definition trim (s : bytes) : bytes := trim_front (rev (trim_front (rev s))).
Fixpoint find_close (s : bytes) (k : nat) : option nat :=
  match s with
  | [] => None
  | c :: s' => if beq c x7d then Some k else find_close s' (S k)
  end.
Definition last_capture (caps : list (bytes * bytes)) (name : bytes) : option bytes :=
  match find (fun p => bytes_eqb (fst p) name) (rev caps) with
  | Some p => Some (snd p)
  | None => None
  end.
(** [skip] bytes belong to a placeholder already replaced; [raw] is set once a
    placeholder without closing brace is met (the rest is copied). *)
Fixpoint placeholders (caps : list (bytes * bytes)) (skip : nat) (raw : bool) (msg : bytes) : bytes :=
  match msg with
  | [] => []
  | c :: msg' =>
    match skip with
    | S k => placeholders caps k raw msg'
    | O =>
      if raw then c :: placeholders caps 0 true msg'
      else match c, msg' with
      | x25, x7b :: rest =>
        match find_close rest 0 with
        | None => c :: placeholders caps 0 true msg'
        | Some k =>
          (match last_capture caps (firstn k rest) with Some v => trim v | None => [] end)
          ++ placeholders caps (k + 2) false msg'
        end
      | _, _ => c :: placeholders caps 0 false msg'
      end
    end
  end.
Definition resolve_capture_placeholders (msg : bytes) (caps : list (bytes * bytes)) : bytes :=
  placeholders caps 0 false msg.
