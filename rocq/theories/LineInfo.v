(** * Line information and string tags: peglib.h 530-572 and 1399-1429. *)
From Verif Require Import Base Utf8.

(** Free function line_info, peglib.h 530-547: [start] is the buffer, [pos]
    is [cur - start].  [p] counts up; [col] is [col_ptr - start]. *)
Fixpoint line_loop (s : bytes) (p cur col no : nat) : outcome (nat * nat) :=
  match cur - p with
  | O => Ok (no, col)
  | S _ =>
    match s with
    | [] => UB OutOfBounds
    | c :: s' =>
      if beq c x0a then line_loop s' (p + 1) cur (p + 1) (no + 1)
      else line_loop s' (p + 1) cur col no
    end
  end.
Definition line_info (s : bytes) (pos : nat) : outcome (nat * nat) :=
  let* (no, col) := line_loop s 0 pos 0 1 in
  let* n := codepoint_count (from s col) (pos - col) in
  Ok (no, n + 1).

(** Context::line_info, peglib.h 1399-1429.  State: the lazily built index
    (None = not ready) and the hint. *)
Record li_state := { li_index : option (list nat); li_hint : nat }.
Definition li_init : li_state := {| li_index := None; li_hint := 0 |}.

Fixpoint newlines_from (s : bytes) (pos : nat) : list nat :=
  match s with
  | [] => []
  | c :: s' => if beq c x0a then pos :: newlines_from s' (pos + 1) else newlines_from s' (pos + 1)
  end.
Definition build_index (s : bytes) : list nat := newlines_from s 0 ++ [List.length s].

(** std::lower_bound on a sorted vector: the first index whose element is not
    below [v] (specified by the C++ standard; the binary search itself is not
    modelled). *)
Fixpoint lower_bound (idx : list nat) (v : nat) : nat :=
  match idx with
  | [] => 0
  | e :: idx' => if e <? v then S (lower_bound idx' v) else 0
  end.

Definition ctx_line_info (s : bytes) (st : li_state) (pos : nat) : outcome (li_state * (nat * nat)) :=
  let idx := match li_index st with Some i => i | None => build_index s end in
  let hint := li_hint st in
  let hint_ok :=
    (hint <? List.length idx)
    && (pos <=? nth hint idx 0)
    && ((hint =? 0) || (nth (hint - 1) idx 0 <? pos)) in
  let id := if hint_ok then hint else lower_bound idx pos in
  let st' := {| li_index := Some idx; li_hint := id |} in
  if id =? 0 then Ok (st', (id + 1, pos + 1))
  else match nth_error idx (id - 1) with
       | None => UB OutOfBounds
       | Some e => Ok (st', (id + 1, pos - (e + 1) + 1))
       end.

(** str2tag_core, peglib.h 551-560: [unsigned int] arithmetic modulo 2^32. *)
Fixpoint str2tag_core (s : bytes) (h : N) : N :=
  match s with
  | [] => h
  | c :: s' => str2tag_core s' (N.lxor (h * 33 mod 4294967296) (bN c))
  end.
Definition str2tag (s : bytes) : N := str2tag_core s 0%N.
