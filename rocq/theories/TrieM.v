(** * Trie: peglib.h lines 449-518. *)
From Verif Require Import Base Escape.

Record info := { i_done : bool; i_match : bool; i_id : nat }.

(** [std::map<std::string, Info>] as an association list with at most one
    entry per key; insertion position is irrelevant to lookups. *)
Definition dic := list (bytes * info).
Fixpoint dfind (k : bytes) (d : dic) : option info :=
  match d with
  | [] => None
  | (k', v) :: d' => if bytes_eqb k' k then Some v else dfind k d'
  end.
Fixpoint dset (k : bytes) (v : info) (d : dic) : dic :=
  match d with
  | [] => [(k, v)]
  | (k', v') :: d' => if bytes_eqb k' k then (k', v) :: d' else (k', v') :: dset k v d'
  end.

(** Loop body, peglib.h 457-468, for prefix length [len] of item [s]. *)
Definition trie_step (s : bytes) (id : nat) (d : dic) (len : nat) : dic :=
  let last := (len =? List.length s) in
  let sv := firstn len s in
  match dfind sv d with
  | None => dset sv {| i_done := last; i_match := last; i_id := id |} d
  | Some it =>
    if last then dset sv {| i_done := i_done it; i_match := true; i_id := i_id it |} d
    else dset sv {| i_done := false; i_match := i_match it; i_id := i_id it |} d
  end.

Definition trie_insert (s : bytes) (id : nat) (d : dic) : dic :=
  fold_left (trie_step s id) (seq 1 (List.length s)) d.

Record trie := { t_dic : dic; t_ignore_case : bool; t_items_count : nat; t_max_len : nat }.

(** Constructor, peglib.h 451-472. *)
Fixpoint trie_items (ic : bool) (items : list bytes) (id : nat) (d : dic) (m : nat) : dic * nat :=
  match items with
  | [] => (d, m)
  | item :: items' =>
    let s := if ic then to_lower item else item in
    let m' := if m <? List.length item then List.length item else m in
    trie_items ic items' (S id) (trie_insert s id d) m'
  end.
Definition make_trie (items : list bytes) (ic : bool) : trie :=
  let (d, m) := trie_items ic items 0 [] 0 in
  {| t_dic := d; t_ignore_case := ic; t_items_count := List.length items; t_max_len := m |}.

(** match(), peglib.h 474-499.  Returns (match_len, id); [id] is [None] when
    the C++ out-parameter was never written.  [fuel] bounds [len <= limit]. *)
Fixpoint trie_loop (fuel : nat) (d : dic) (text : bytes) (limit len mlen : nat) (id : option nat)
  : nat * option nat :=
  match fuel with
  | O => (mlen, id)
  | S fuel' =>
    if len <=? limit then
      match dfind (firstn len text) d with
      | None => (mlen, id)
      | Some it =>
        let mlen' := if i_match it then len else mlen in
        let id' := if i_match it then Some (i_id it) else id in
        if i_done it then (mlen', id')
        else trie_loop fuel' d text limit (len + 1) mlen' id'
      end
    else (mlen, id)
  end.
Definition trie_match (t : trie) (text : bytes) : nat * option nat :=
  let limit := Nat.min (List.length text) (t_max_len t) in
  let text' := if t_ignore_case t then to_lower (firstn limit text) else text in
  trie_loop (S limit) (t_dic t) text' limit 1 0 None.
