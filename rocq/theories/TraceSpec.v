(** * What a trace printed by enable_tracing should say (C56). *)
From Verif Require Import Base Ope Ctx TraceM.

Definition line_level (l : tline) : nat := match l with LEnter _ _ v _ _ _ => v | LLeave _ _ v _ _ => v end.
Definition line_id (l : tline) : nat := match l with LEnter _ _ _ _ _ i => i | LLeave _ _ _ _ i => i end.
Definition line_name (l : tline) : bytes := match l with LEnter _ _ _ n _ _ => n | LLeave _ _ _ n _ => n end.
Definition is_enter_line (l : tline) : bool := match l with LEnter _ _ _ _ _ _ => true | _ => false end.

(** What a reader of the lines learns of one call: which operator, where it began, how it
    ended. *)
Inductive seen_event := SEnter (nm : bytes) (pos : nat) | SLeave (nm : bytes) (pos : nat) (len : option nat).
Definition view (name : rid -> bytes) (e : event) : seen_event :=
  match e with TEnter o pos => SEnter (ope_name name o) pos | TLeave o pos len => SLeave (ope_name name o) pos len end.

(** Reading the lines: an enter line opens a call at the position shown; a leave line
    closes the call opened last and not yet closed, and its length is the difference of
    the positions shown. *)
Fixpoint read_lines (opened : list nat) (ls : list tline) : option (list seen_event) :=
  match ls with
  | [] => match opened with [] => Some [] | _ => None end
  | LEnter p _ _ nm _ _ :: ls' =>
    match read_lines (p :: opened) ls' with Some r => Some (SEnter nm (p - 1) :: r) | None => None end
  | LLeave q ok _ nm _ :: ls' =>
    match opened with
    | [] => None
    | p :: opened' =>
      match read_lines opened' ls' with
      | Some r => Some (SLeave nm (p - 1) (if ok then Some (q - p) else None) :: r)
      | None => None
      end
    end
  end.

(** How many calls are open after the first [i] lines. *)
Definition count (p : tline -> bool) (ls : list tline) : nat := List.length (filter p ls).
Definition open_after (i : nat) (ls : list tline) : nat :=
  count is_enter_line (firstn i ls) - count (fun l => negb (is_enter_line l)) (firstn i ls).

(** Line [i] is where the call of line [j] ends: same number, same bars, same operator, and
    only deeper lines between them. *)
Definition closes (ls : list tline) (i j : nat) : Prop :=
  exists p b v nm t n q ok,
    nth_error ls j = Some (LEnter p b v nm t n) /\ nth_error ls i = Some (LLeave q ok v nm n) /\ j < i
    /\ forall k l, j < k < i -> nth_error ls k = Some l -> v < line_level l /\ n < line_id l.

(** The position shown in the enter line before line [i]; 1 if there is none. *)
Fixpoint last_entered (d : nat) (ls : list tline) : nat :=
  match ls with [] => d | LEnter p _ _ _ _ _ :: ls' => last_entered p ls' | _ :: ls' => last_entered d ls' end.
