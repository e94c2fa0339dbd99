(** * PackratCache: peglib.h lines 905-1000. *)
From Verif Require Import Base.
Local Open Scope N_scope.

(** peglib.h 971-972.  [size_t] is 64 bits. *)
Definition kEmpty : N := 0xFFFFFFFFFFFFFFFF.
Definition kTombstone : N := 0xFFFFFFFFFFFFFFFE.
Definition two64 : N := 0x10000000000000000.

(** peglib.h 974-979, mix. *)
Definition mix (key : N) : N :=
  let h := (key * 0x9E3779B97F4A7C15) mod two64 in
  N.lxor h (N.shiftr h 32).

(** Values are [std::any]: [None] is an empty [any]. *)
Record pcache (V : Type) := {
  pc_init : N;                   (* initial_capacity_ *)
  pc_keys : list N;
  pc_vals : list (option V);
  pc_used : nat;                 (* occupied + tombstone slots *)
}.
Arguments pc_init {V}. Arguments pc_keys {V}. Arguments pc_vals {V}. Arguments pc_used {V}.

(** Constructor, peglib.h 907-911: doubling loop on [size_t]; 54 doublings
    from 1024 reach 2^64, beyond which the C++ loop would not end. *)
Fixpoint init_loop (fuel : nat) (cap expected : N) : outcome N :=
  if cap <? expected then
    match fuel with O => OutOfFuel | S f => init_loop f (cap * 2) expected end
  else Ok cap.
Definition pc_new {V} (expected : N) : outcome (pcache V) :=
  let* c := init_loop 53 1024 expected in
  Ok {| pc_init := c; pc_keys := []; pc_vals := []; pc_used := 0 |}.

Section Ops.
  Context {V : Type}.

  Definition list_set {A} (l : list A) (i : nat) (x : A) : list A :=
    firstn i l ++ match skipn i l with [] => [] | _ :: t => x :: t end.

  (** [mix(key) & mask] and [(i + 1) & mask]. *)
  Definition home (keys : list N) (key : N) : nat :=
    N.to_nat (N.land (mix key) (N.of_nat (List.length keys) - 1)).
  Definition next (keys : list N) (i : nat) : nat :=
    N.to_nat (N.land (N.of_nat i + 1) (N.of_nat (List.length keys) - 1)).

  (** The probe loops of find (917-925) and erase (957-965): index of the key,
      or [None] when an empty slot is met.  Fuel exhaustion = infinite loop. *)
  Fixpoint probe (fuel : nat) (keys : list N) (key : N) (i : nat) : outcome (option nat) :=
    match fuel with
    | O => OutOfFuel
    | S f =>
      match nth_error keys i with
      | None => UB OutOfBounds
      | Some k =>
        if k =? key then Ok (Some i)
        else if k =? kEmpty then Ok None
        else probe f keys key (next keys i)
      end
    end.

  (** find, peglib.h 913-926: [Some v] is "return true" with [val = v]. *)
  Definition pc_find (c : pcache V) (key : N) : outcome (option (option V)) :=
    match pc_keys c with
    | [] => Ok None
    | _ =>
      let keys := pc_keys c in
      let* r := probe (List.length keys) keys key (home keys key) in
      match r with
      | None => Ok None
      | Some i => match nth_error (pc_vals c) i with Some v => Ok (Some v) | None => UB OutOfBounds end
      end
    end.

  (** Inner loop of grow, 991-993: first empty slot. *)
  Fixpoint probe_empty (fuel : nat) (keys : list N) (i : nat) : outcome nat :=
    match fuel with
    | O => OutOfFuel
    | S f =>
      match nth_error keys i with
      | None => UB OutOfBounds
      | Some k => if k =? kEmpty then Ok i else probe_empty f keys (next keys i)
      end
    end.

  Definition grow_put (st : outcome (list N * list (option V) * nat)) (kv : N * option V)
    : outcome (list N * list (option V) * nat) :=
    let* (keys, vals, used) := st in
    let (k, v) := kv in
    if (k =? kEmpty) || (k =? kTombstone) then Ok (keys, vals, used)
    else
      let* i := probe_empty (List.length keys) keys (home keys k) in
      Ok (list_set keys i k, list_set vals i v, S used).

  (** grow, peglib.h 981-999. *)
  Definition pc_grow (c : pcache V) : outcome (pcache V) :=
    let new_cap := match pc_keys c with
                   | [] => N.to_nat (pc_init c)
                   | _ => (List.length (pc_keys c) * 2)%nat end in
    let* (keys, vals, used) :=
      fold_left grow_put (combine (pc_keys c) (pc_vals c))
        (Ok (repeat kEmpty new_cap, repeat None new_cap, 0%nat)) in
    Ok {| pc_init := pc_init c; pc_keys := keys; pc_vals := vals; pc_used := used |}.

  (** Probe loop of insert_or_assign, peglib.h 933-947: the insert position and
      whether [used_] is incremented.  [ip] is [insert_pos] ([None] = kEmpty). *)
  Fixpoint probe_insert (fuel : nat) (keys : list N) (key : N) (i : nat) (ip : option nat)
    : outcome (nat * bool) :=
    match fuel with
    | O => OutOfFuel
    | S f =>
      match nth_error keys i with
      | None => UB OutOfBounds
      | Some k =>
        if k =? key then Ok (i, false)
        else if k =? kTombstone then
          probe_insert f keys key (next keys i) (match ip with None => Some i | Some p => Some p end)
        else if k =? kEmpty then
          let p := match ip with None => i | Some p => p end in
          match nth_error keys p with
          | None => UB OutOfBounds
          | Some kp => Ok (p, kp =? kEmpty)
          end
        else probe_insert f keys key (next keys i) ip
      end
    end.

  (** insert_or_assign, peglib.h 928-950. *)
  Definition pc_insert (c : pcache V) (key : N) (val : option V) : outcome (pcache V) :=
    let full := (List.length (pc_keys c) * 3 <? (pc_used c + 1) * 4)%nat in
    let* c1 := (match pc_keys c with
                | [] => pc_grow c
                | _ => if full then pc_grow c else Ok c end) in
    let keys := pc_keys c1 in
    let* (p, inc) := probe_insert (List.length keys) keys key (home keys key) None in
    Ok {| pc_init := pc_init c1; pc_keys := list_set keys p key;
          pc_vals := list_set (pc_vals c1) p val;
          pc_used := if inc then S (pc_used c1) else pc_used c1 |}.

  (** erase, peglib.h 952-966. *)
  Definition pc_erase (c : pcache V) (key : N) : outcome (pcache V) :=
    match pc_keys c with
    | [] => Ok c
    | _ =>
      let keys := pc_keys c in
      let* r := probe (List.length keys) keys key (home keys key) in
      match r with
      | None => Ok c
      | Some i => Ok {| pc_init := pc_init c; pc_keys := list_set keys i kTombstone;
                        pc_vals := list_set (pc_vals c) i None; pc_used := pc_used c |}
      end
    end.
End Ops.

(** A history of operations. *)
Inductive pc_op (V : Type) := Insert (key : N) (v : option V) | Erase (key : N).
Arguments Insert {V}. Arguments Erase {V}.
Definition pc_step {V} (c : outcome (pcache V)) (o : pc_op V) : outcome (pcache V) :=
  let* c' := c in
  match o with Insert k v => pc_insert c' k v | Erase k => pc_erase c' k end.
