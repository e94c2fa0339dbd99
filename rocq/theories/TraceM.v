(** * The printer of enable_tracing (peglib.h 7064-7119), driven by the calls made to the
    tracers.  The end of a leave line (choice, token and match, 7098-7111) depends on the
    values at that moment, which are not recorded in an event: it is a parameter. *)
From Verif Require Import Base Escape Ope Ctx AstText.

Section Trace.
  (* Holder::name(): the name of the rule *)
  Variable name : rid -> bytes.

  (** TraceOpeName, 2401-2426; Holder::trace_name, 4062-4066. *)
  Definition ope_name (o : ope) : bytes :=
    match o with
    | Seq _ _ => bs "Sequence" | Cho _ _ _ => bs "PrioritizedChoice" | Rep _ _ _ _ => bs "Repetition"
    | And _ => bs "AndPredicate" | Not _ => bs "NotPredicate" | Dic _ => bs "Dictionary" | Lit _ _ => bs "LiteralString"
    | Cls _ _ _ => bs "CharacterClass" | Chr _ => bs "Character" | Dot => bs "AnyCharacter" | Csc _ => bs "CaptureScope"
    | Cap _ _ => bs "Capture" | Tok _ => bs "TokenBoundary" | Ign _ => bs "Ignore" | Usr _ => bs "User"
    | Wkh _ => bs "WeakHolder" | Hld r => bs "[" ++ name r ++ bs "]" | Ref _ _ _ _ _ => bs "Reference"
    | Wsp _ => bs "Whitespace" | Bkr _ => bs "BackReference" | Pre _ _ _ _ => bs "PrecedenceClimbing"
    | Rcv _ => bs "Recovery" | Cut => bs "Cut" | Nul => []
    end.
  (** 7076-7081: a literal is shown in the enter line. *)
  Definition shown_text (o : ope) : bytes :=
    match o with Lit s _ => bs " '" ++ escape_characters s ++ bs "'" | _ => [] end.

  (** What a line shows: position (from 1), backtrack mark or outcome, number of bars,
      name, text of a literal, number. *)
  Inductive tline :=
  | LEnter (pos : nat) (back : bool) (level : nat) (nm text : bytes) (id : nat)
  | LLeave (pos : nat) (ok : bool) (level : nat) (nm : bytes) (id : nat).

  (** Context::next_trace_id and trace_ids (1431-1432; the last element first), and the
      trace_data of enable_tracing: the position entered last. *)
  Record tstate := { t_next : nat; t_ids : list nat; t_prev : nat }.
  Definition tstate0 : tstate := {| t_next := 0; t_ids := []; t_prev := 0 |}.

  (** Context::trace_enter (3643-3647) with 7066-7085; Context::trace_leave (3649-3654) with
      7086-7114. *)
  Definition trace_event (s : tstate) (e : event) : outcome (tline * tstate) :=
    match e with
    | TEnter o pos =>
      let ids := t_next s :: t_ids s in
      Ok (LEnter (pos + 1) (pos <? t_prev s) (List.length ids - 1) (ope_name o) (shown_text o) (t_next s),
          {| t_next := t_next s + 1; t_ids := ids; t_prev := pos |})
    | TLeave o pos len =>
      match t_ids s with
      | [] => UB EmptyVector
      | i :: ids =>
        let pos' := match len with Some k => pos + k | None => pos end in
        Ok (LLeave (pos' + 1) (match len with Some _ => true | None => false end) (List.length (t_ids s) - 1) (ope_name o) i,
            {| t_next := t_next s; t_ids := ids; t_prev := t_prev s |})
      end
    end.
  Fixpoint trace_lines (s : tstate) (evs : list event) : outcome (list tline * tstate) :=
    match evs with
    | [] => Ok ([], s)
    | e :: evs' =>
      let* (l, s1) := trace_event s e in
      let* (ls, s2) := trace_lines s1 evs' in Ok (l :: ls, s2)
    end.

  (** The text of a line, 7082-7083 and 7112-7114; [rest] is choice, token and match.
      The bars are U+2502, U+250C and U+2514. *)
  Fixpoint bars (level : nat) : bytes := match level with O => [] | S l => xe2 :: x94 :: x82 :: bars l end.
  Definition line_text (rest : bytes) (l : tline) : bytes :=
    match l with
    | LEnter pos back level nm text id =>
      bs "E " ++ to_string pos ++ (if back then bs "*" else []) ++ [x09] ++ bars level ++ [xe2; x94; x8c] ++ nm ++ text
      ++ bs " #" ++ to_string id ++ [x0a]
    | LLeave pos ok level nm id =>
      bs "L " ++ to_string pos ++ [x09] ++ bars level ++ [xe2; x94; x94] ++ (if ok then bs "o " else bs "x ") ++ nm
      ++ bs " #" ++ to_string id ++ rest ++ [x0a]
    end.
  (** The whole output; [rest i] is what ends line [i]. *)
  Fixpoint trace_text (rest : nat -> bytes) (i : nat) (ls : list tline) : bytes :=
    match ls with [] => [] | l :: ls' => line_text (rest i) l ++ trace_text rest (S i) ls' end.
End Trace.
