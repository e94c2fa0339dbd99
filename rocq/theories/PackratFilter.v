(** * Which rules are memoised: Definition::initialize_packrat_filter
    (peglib.h 4753-4917) and Context::cache_slot (1083-1088).

    [id r] is the current value of Definition::id of rule [r]; [n] the number of
    definitions the start rule's scan met.  [sig] is OpeSignature::get (2646-2736) as
    an equality test: the strings are only compared with each other, and the choice
    of memoised rules is a heuristic, so any test is allowed here. *)
From Verif Require Import Base BaseLemmas Utf8 Escape TrieM LineInfo Ope Ctx ErrLog Engine EngineLemmas Top.

(** ComputeCanBeEmpty, 2608-2644 and 4389-4391; defaults of TraversalVisitor,
    2376-2400. *)
Section Cbe.
  Variables (g : grammar) (enter : rid -> bool).
  Fixpoint cbe_ope (o : ope) : bool :=
    match o with
    | Seq _ l => forallb cbe_ope l
    | Cho _ _ l => existsb cbe_ope l
    | Rep _ mn _ _ => mn =? 0
    | And _ | Not _ => true
    | Lit s _ => match s with [] => true | _ => false end
    | Csc e | Cap _ e | Tok e | Ign e | Wsp e | Rcv e => cbe_ope e
    | Ref _ (Some r) _ _ _ => match nth_error g r with Some d => r_can_be_empty d | None => false end
    | Pre a _ _ _ => cbe_ope a
    | Wkh r | Hld r => enter r
    | _ => false
    end.
End Cbe.
(** Bodies are entered only through (Weak)Holder, without a guard in the code; [fuel]
    bounds the nesting. *)
Fixpoint cbe_enter (fuel : nat) (g : grammar) (r : rid) : bool :=
  match fuel with
  | O => false
  | S fuel' => match nth_error g r with
               | Some d => match r_body d with Some b => cbe_ope g (cbe_enter fuel' g) b | None => false end
               | None => false
               end
  end.
Definition can_be_empty (g : grammar) (o : ope) : bool := cbe_ope g (cbe_enter (S (List.length g)) g) o.

Definition nmem (x : nat) (l : list nat) : bool := existsb (Nat.eqb x) l.

Section Filter.
  Variables (g : grammar) (id : rid -> nat) (n : nat) (sig : ope -> ope -> bool).

  (** CollectLeftmostRules, 4764-4812: (reachable, visited_rules), as lists of ids. *)
  Definition clr_st := (list nat * list nat)%type.
  Section Clr.
    Variable enter : rid -> clr_st -> clr_st.        (* visit(Holder&) *)
    Fixpoint clr_ope (o : ope) (st : clr_st) : clr_st :=
      let fix all l st := match l with [] => st | x :: l' => all l' (clr_ope x st) end in
      let fix lead l st := match l with
                           | [] => st
                           | x :: l' => let st' := clr_ope x st in if can_be_empty g x then lead l' st' else st'
                           end in
      match o with
      | Seq _ l => lead l st
      | Cho _ _ l => all l st
      | Rep e _ _ _ | And e | Not e | Csc e | Cap _ e | Tok e | Ign e | Wsp e | Rcv e => clr_ope e st
      | Pre a _ _ _ => clr_ope a st
      | Wkh r | Hld r => enter r st
      | Ref _ (Some r) _ _ _ =>
        if (id r <? n) && negb (nmem (id r) (fst st)) then enter r (id r :: fst st, snd st) else st
      | _ => st
      end.
    (** collect, 4780-4787. *)
    Fixpoint clr_collect (l : list ope) (st : clr_st) : clr_st :=
      match l with
      | [] => st
      | x :: l' => let st' := clr_ope x st in if can_be_empty g x then clr_collect l' st' else st'
      end.
  End Clr.
  Fixpoint clr_enter (fuel : nat) (r : rid) (st : clr_st) : clr_st :=
    match fuel with
    | O => st
    | S fuel' =>
      let body st' := match nth_error g r with
                      | Some d => match r_body d with Some b => clr_ope (clr_enter fuel') b st' | None => st' end
                      | None => st'
                      end in
      if id r <? n then
        let reach := id r :: fst st in
        if nmem (id r) (snd st) then (reach, snd st) else body (reach, id r :: snd st)
      else body st
    end.
  Definition leftmost (l : list ope) : list nat := fst (clr_collect (clr_enter (S (List.length g))) l ([], [])).

  (** mark_aligned, 4840-4868.  [fuel] bounds the depth; the longest alternative
      suffices.  std::map iterates the groups in the order of their keys; the marks do
      not depend on that order. *)
  Fixpoint reps {A} (same : A -> A -> bool) (l : list A) : list A :=
    match l with [] => [] | s :: l' => s :: filter (fun x => negb (same s x)) (reps same l') end.
  Fixpoint mark_aligned (fuel : nat) (group : list (list ope)) (k : nat) (ben : list nat) : list nat :=
    match fuel with
    | O => ben
    | S fuel' =>
      if List.length group <? 2 then ben
      else
        let reach := map (fun s => leftmost (skipn k s)) group in
        let ben1 := filter (fun i => 2 <=? List.length (filter (nmem i) reach)) (seq 0 n) ++ ben in
        let same s s' := match nth_error s k, nth_error s' k with Some x, Some y => sig x y | _, _ => false end in
        let long := filter (fun s => k <? List.length s) group in
        fold_left (fun b s => mark_aligned fuel' (filter (same s) long) (S k) b) (reps same long) ben1
    end.

  (** FindBacktrackRules, 4818-4895: (benefits, visited_rules). *)
  Definition elements_of (o : ope) : list ope := match o with Seq _ l => l | _ => [o] end.
  Section Fbr.
    Variable enter : rid -> clr_st -> clr_st.
    Fixpoint fbr_ope (o : ope) (st : clr_st) : clr_st :=
      let fix all l st := match l with [] => st | x :: l' => all l' (fbr_ope x st) end in
      match o with
      | Seq _ l => all l st
      | Cho _ _ l =>
        let group := map elements_of l in
        all l (mark_aligned (S (list_max (map (@List.length ope) group))) group 0 (fst st), snd st)
      | Rep e _ _ _ | And e | Not e | Csc e | Cap _ e | Tok e | Ign e | Wsp e | Rcv e => fbr_ope e st
      | Pre a _ _ _ => fbr_ope a st
      | Wkh r | Hld r | Ref _ (Some r) _ _ _ => enter r st
      | _ => st
      end.
  End Fbr.
  Fixpoint fbr_enter (fuel : nat) (r : rid) (st : clr_st) : clr_st :=
    match fuel with
    | O => st
    | S fuel' =>
      if (id r <? n) && negb (nmem (id r) (snd st)) then
        let st1 := (fst st, id r :: snd st) in
        match nth_error g r with
        | Some d => match r_body d with Some b => fbr_ope (fbr_enter fuel') b st1 | None => st1 end
        | None => st1
        end
      else st
    end.
  (** 4897-4907: [defs] are the definitions of the scan with the ids they got then. *)
  Definition benefits (start : rid) (ws word : option ope) (defs : list rid) : list nat :=
    let en := fbr_enter (S (List.length g)) in
    let opt o st := match o with Some e => fbr_ope en e st | None => st end in
    let found := fst (opt word (opt ws (en start ([], [])))) in
    flat_map (fun p => match nth_error g (snd p) with
                       | Some d => if r_lr d && negb (r_is_macro d) && (fst p <? n) then [fst p] else []
                       | None => []
                       end) (combine (seq 0 (List.length defs)) defs) ++ found.

  (** 4909-4916: packrat_index_, packrat_cached_count_. *)
  Fixpoint compact (ben : list nat) (ids : list nat) (k : nat) : list (option nat) * nat :=
    match ids with
    | [] => ([], k)
    | i :: ids' => if nmem i ben then let (l, c) := compact ben ids' (S k) in (Some k :: l, c)
                   else let (l, c) := compact ben ids' k in (None :: l, c)
    end.
  Definition packrat_filter (start : rid) (ws word : option ope) (defs : list rid) : list (option nat) * nat :=
    compact (benefits start ws word defs) (seq 0 n) 0.
End Filter.
(** cache_slot, 1083-1088. *)
Definition cache_slot (index : list (option nat)) (i : nat) : option nat :=
  match nth_error index i with Some s => s | None => None end.

(** ** Slots are pairwise different and below the count. *)
Lemma compact_spec ben ids : forall k l c, compact ben ids k = (l, c) ->
  k <= c /\ List.length l = List.length ids /\
  (forall i s, nth_error l i = Some (Some s) -> k <= s < c) /\
  (forall i j s, nth_error l i = Some (Some s) -> nth_error l j = Some (Some s) -> i = j).
Proof.
  induction ids as [|x ids IH]; intros k l c H; cbn in H.
  - inv H. split; [lia|]. split; [reflexivity|]. split; intros [|i] *; cbn; discriminate.
  - destruct (nmem x ben).
    + destruct (compact ben ids (S k)) as [l' c'] eqn:Hc. inv H. destruct (IH _ _ _ Hc) as (H1 & H2 & H3 & H4).
      split; [lia|]. split; [cbn; lia|]. split.
      * intros [|i] s Hi; cbn in Hi; [inv Hi; lia|]. apply H3 in Hi. lia.
      * intros [|i] [|j] s Hi Hj; cbn in Hi, Hj; [reflexivity| | |f_equal; eauto].
        -- inv Hi. apply H3 in Hj. lia.
        -- inv Hj. apply H3 in Hi. lia.
    + destruct (compact ben ids k) as [l' c'] eqn:Hc. inv H. destruct (IH _ _ _ Hc) as (H1 & H2 & H3 & H4).
      split; [lia|]. split; [cbn; lia|]. split.
      * intros [|i] s Hi; cbn in Hi; [discriminate|]. apply H3 in Hi. lia.
      * intros [|i] [|j] s Hi Hj; cbn in Hi, Hj; try discriminate. f_equal. eauto.
Qed.
Lemma packrat_filter_slots g id n sig start ws word defs :
  let (index, count) := packrat_filter g id n sig start ws word defs in
  forall i s, cache_slot index i = Some s -> s < count /\ i < n /\ forall j, cache_slot index j = Some s -> j = i.
Proof.
  unfold packrat_filter. destruct (compact _ _ _) as [index count] eqn:Hc. destruct (compact_spec _ _ _ _ _ Hc) as (H1 & H2 & H3 & H4).
  assert (Hx : forall i s, cache_slot index i = Some s -> nth_error index i = Some (Some s)).
  { intros i s. unfold cache_slot. destruct (nth_error index i); congruence. }
  intros i s Hi. apply Hx in Hi. split; [apply H3 in Hi; lia|]. split.
  - rewrite seq_length in H2. rewrite <- H2. apply nth_error_Some. congruence.
  - intros j Hj. apply Hx in Hj. eauto.
Qed.
