(** * What a profile should say (C53). *)
From Verif Require Import Base Ope Ctx ProfileM.

Section Spec.
  Variable name : rid -> bytes.
  Definition enters (n : bytes) (e : event) : bool :=
    match e with TEnter (Hld r) _ => bytes_eqb (name r) n | _ => false end.
  Definition succeeds (n : bytes) (e : event) : bool :=
    match e with TLeave (Hld r) _ (Some _) => bytes_eqb (name r) n | _ => false end.
  Definition fails (n : bytes) (e : event) : bool :=
    match e with TLeave (Hld r) _ None => bytes_eqb (name r) n | _ => false end.
  (** How often the rule called [n] was entered, matched and failed. *)
  Definition times (p : event -> bool) (evs : list event) : nat := List.length (filter p evs).
  (** The rules entered, in the order in which they were entered first. *)
  Definition add_new (l : list bytes) (e : event) : list bytes :=
    match e with
    | TEnter (Hld r) _ => if existsb (fun x => bytes_eqb x (name r)) l then l else l ++ [name r]
    | _ => l
    end.
  Definition rules_seen (evs : list event) : list bytes := fold_left add_new evs [].
  (** The numbers to be shown after the calls [evs]. *)
  Definition rows_after (evs : list event) : list (bytes * nat * nat) :=
    map (fun n => (n, times (succeeds n) evs, times (fails n) evs)) (rules_seen evs).
  Definition total (f : bytes * nat * nat -> nat) (l : list (bytes * nat * nat)) : nat := fold_right (fun r a => f r + a) 0 l.
  Definition is_enter (e : event) : bool := match e with TEnter (Hld _) _ => true | _ => false end.
  Definition report_after (evs : list event) : preport :=
    let rows := rows_after evs in
    {| pr_total := total (fun r => snd (fst r)) rows + total snd rows; pr_success := total (fun r => snd (fst r)) rows;
       pr_fail := total snd rows; pr_entered := times is_enter evs; pr_rows := rows |}.
End Spec.

(** A report is due whenever the rule that was entered first of all is left. *)
Definition prefixes (evs : list event) : list (list event) := map (fun k => firstn k evs) (seq 1 (List.length evs)).
Definition report_due (name : rid -> bytes) (p : list event) : bool :=
  match rev p, rules_seen name p with
  | TLeave (Hld r) _ _ :: _, n :: _ => bytes_eqb (name r) n
  | _, _ => false
  end.
