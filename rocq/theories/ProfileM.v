(** * The counters of enable_profiling (peglib.h 7124-7216), driven by the calls made to the
    tracers.  Not modelled: the clock and the layout of the printed table (a report is the
    numbers that are printed). *)
From Verif Require Import Base Ope Ctx.

(** struct Stats, 7125-7134: [st_index] is the map from names to rows. *)
Record stats := { st_items : list (bytes * nat * nat); st_index : list (bytes * nat); st_total : nat }.
Definition stats0 : stats := {| st_items := []; st_index := []; st_total := 0 |}.
(** What is printed, 7163-7205: grand total, successes, failures, then the rows; the
    percentages of the rows are of [pr_entered]. *)
Record preport := { pr_total : nat; pr_success : nat; pr_fail : nat; pr_entered : nat; pr_rows : list (bytes * nat * nat) }.

Section Profile.
  (* Holder::name() *)
  Variable name : rid -> bytes.

  Definition row_of (s : stats) (n : bytes) : option nat :=
    match find (fun p => bytes_eqb (fst p) n) (st_index s) with Some p => Some (snd p) | None => None end.
  (** 7137-7148. *)
  Definition prof_enter (s : stats) (n : bytes) : stats :=
    match row_of s n with
    | Some _ => {| st_items := st_items s; st_index := st_index s; st_total := S (st_total s) |}
    | None => {| st_items := st_items s ++ [(n, 0, 0)]; st_index := st_index s ++ [(n, List.length (st_index s))]; st_total := S (st_total s) |}
    end.
  Fixpoint bump (l : list (bytes * nat * nat)) (i : nat) (ok : bool) : outcome (list (bytes * nat * nat)) :=
    match l, i with
    | [], _ => UB BadIndex
    | (n, s, f) :: l', O => Ok ((if ok then (n, S s, f) else (n, s, S f)) :: l')
    | x :: l', S i' => let* r := bump l' i' ok in Ok (x :: r)
    end.
  Definition report_of (s : stats) : preport :=
    let ts := fold_left (fun a r => a + snd (fst r)) (st_items s) 0 in
    let tf := fold_left (fun a r => a + snd r) (st_items s) 0 in
    {| pr_total := ts + tf; pr_success := ts; pr_fail := tf; pr_entered := st_total s; pr_rows := st_items s |}.
  (** 7149-7206.  operator[] on the map makes an entry with row 0 for an unknown name. *)
  Definition prof_leave (s : stats) (n : bytes) (ok : bool) : outcome (stats * list preport) :=
    let index := match row_of s n with Some _ => st_index s | None => st_index s ++ [(n, 0)] end in
    let i := match row_of s n with Some i => i | None => 0 end in
    let* items := bump (st_items s) i ok in
    let s' := {| st_items := items; st_index := index; st_total := st_total s |} in
    Ok (s', if i =? 0 then [report_of s'] else []).
  Definition prof_step (s : stats) (e : event) : outcome (stats * list preport) :=
    match e with
    | TEnter (Hld r) _ => Ok (prof_enter s (name r), [])
    | TLeave (Hld r) _ len => prof_leave s (name r) (match len with Some _ => true | None => false end)
    | _ => Ok (s, [])
    end.
  (** All the calls, oldest first; what is printed, in order. *)
  Fixpoint profile (s : stats) (evs : list event) : outcome (stats * list preport) :=
    match evs with
    | [] => Ok (s, [])
    | e :: evs' =>
      let* (s1, r1) := prof_step s e in
      let* (s2, r2) := profile s1 evs' in
      Ok (s2, r1 ++ r2)
    end.
End Profile.
