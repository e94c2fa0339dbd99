(** * First sets, byte-set spans and keyword guards: how SetupFirstSets annotates a
    grammar (peglib.h 1556-1572, 1905-1921, 2948-3091, 4583-4748).

    A rule is known by its index; [Definition*] sets and maps become lists of
    indices.  The visitor's [result_] is empty at the start of every visit
    (Sequence, PrioritizedChoice and Reference reset it before descending), so a
    visit is a function returning the set.  The annotations already present in the
    grammar are not read. *)
From Verif Require Import Base Escape TrieM Ope.

Definition toupper (b : byte) : byte :=                 (* std::toupper, C locale *)
  let n := bN b in if ((97 <=? n) && (n <=? 122))%N then byteN (n - 32) else b.
Definition badd (b : byte) (s : bitset) : bitset := bset s (bN b).

(** chars.set(ch), and both cases of it when [ignore_case] (2990-2994, 3003-3007,
    3024-3028, 1913-1918). *)
Definition badd_ci (ic : bool) (b : byte) (s : bitset) : bitset :=
  if ic then badd (tolower b) (badd (toupper b) (badd b s)) else badd b s.
(** for (cp = lo; cp <= hi; cp++) ... *)
Definition badd_range (ic : bool) (lo hi : N) (s : bitset) : bitset :=
  fold_left (fun s n => badd_ci ic (byteN (N.of_nat n)) s)
            (seq (N.to_nat lo) (S (N.to_nat hi) - N.to_nat lo)) s.

(** CharacterClass::setup_ascii_bitset, 1905-1921: [None] when not ASCII-only. *)
Definition ascii_ranges (rs : ranges) : bool :=
  forallb (fun r => (fst r <=? 0x7F) && (snd r <=? 0x7F))%N rs.
Definition ascii_bitset (rs : ranges) (neg ic : bool) : option bitset :=
  if neg then None
  else if ascii_ranges rs
       then Some (fold_left (fun s r => badd_range ic (fst r) (snd r) s) rs 0%N)
       else None.

Definition fs_empty : first_set :=
  {| fs_chars := 0%N; fs_can_be_empty := false; fs_any_char := false;
     fs_first_literal := None; fs_first_rule := None |}.
Definition fs_with (chars : bitset) (em an : bool) (lit : option bytes) (rl : option rid) : first_set :=
  {| fs_chars := chars; fs_can_be_empty := em; fs_any_char := an; fs_first_literal := lit; fs_first_rule := rl |}.
Definition fs_any : first_set := fs_with 0%N false true None None.
Definition fs_nothing : first_set := fs_with 0%N true false None None.
Definition fs_or_empty (f : first_set) : first_set :=
  fs_with (fs_chars f) true (fs_any_char f) (fs_first_literal f) (fs_first_rule f).
(** FirstSet::merge, 1566-1571: the literal and the rule are kept. *)
Definition fs_merge (a b : first_set) : first_set :=
  fs_with (N.lor (fs_chars a) (fs_chars b)) (fs_can_be_empty a || fs_can_be_empty b)
          (fs_any_char a || fs_any_char b) (fs_first_literal a) (fs_first_rule a).
Definition or_else {A} (a b : option A) : option A := match a with Some _ => a | None => b end.

(** visit(Dictionary), 2986-2998: first bytes of all keys, prefixes included. *)
Definition fs_dic (t : trie) : first_set :=
  fs_with (fold_left (fun s e => match fst e with
                                 | [] => s
                                 | b :: _ => badd_ci (t_ignore_case t) b s
                                 end) (t_dic t) 0%N) false false None None.
(** visit(LiteralString), 2999-3011. *)
Definition fs_lit (s : bytes) (ic : bool) : first_set :=
  match s with
  | [] => fs_nothing
  | b :: _ => fs_with (badd_ci ic b 0%N) false false (Some s) None
  end.
(** visit(CharacterClass), 3012-3035.  [flip] of a negated class is dropped with the
    bits: [any_char] is set, which makes them irrelevant (simplification). *)
Fixpoint fs_cls_loop (ic : bool) (rs : ranges) (s : bitset) : bitset * bool :=
  match rs with
  | [] => (s, false)
  | (lo, hi) :: rs' =>
    if ((0x7F <? lo) || (0x7F <? hi))%N then (s, true)
    else fs_cls_loop ic rs' (badd_range ic lo hi s)
  end.
Definition fs_cls (rs : ranges) (neg ic : bool) : first_set :=
  let (s, wide) := fs_cls_loop ic rs 0%N in fs_with s false (wide || neg) None None.
(** visit(Character), 3036-3042. *)
Definition fs_chr (cp : N) : first_set :=
  if (0x7F <? cp)%N then fs_any else fs_with (badd (byteN cp) 0%N) false false None None.

(** cache_ and cycle_count_ of a ComputeFirstSet. *)
Record fst_st := { s_cache : list (rid * first_set); s_cycles : nat }.
Definition cfind (r : rid) (c : list (rid * first_set)) : option first_set :=
  match find (fun e => fst e =? r) c with Some e => Some (snd e) | None => None end.

Section Compute.
  Variable g : grammar.

  (** Definition::is_token, 3274-3279. *)
  Definition rule_is_token (r : rid) : bool :=
    match nth_error g r with
    | Some d => match r_body d with Some b => is_token_ope b | None => false end
    | None => false
    end.

  (** One element of visit(Sequence), 2951-2968, and of visit(PrioritizedChoice),
      2969-2977, with the visit of the element abstracted. *)
  Section Lists.
    Variable visit : fst_st -> ope -> outcome (first_set * fst_st).
    Fixpoint fs_seq (l : list ope) (acc : first_set) (st : fst_st) : outcome (first_set * fst_st) :=
      match l with
      | [] => Ok (fs_or_empty acc, st)
      | o :: l' =>
        let* (e, st1) := visit st o in
        let acc' := fs_with (N.lor (fs_chars acc) (fs_chars e)) (fs_can_be_empty acc)
                            (fs_any_char acc || fs_any_char e)
                            (or_else (fs_first_literal acc) (fs_first_literal e))
                            (or_else (fs_first_rule acc) (fs_first_rule e)) in
        if fs_can_be_empty e then fs_seq l' acc' st1 else Ok (acc', st1)
      end.
    Fixpoint fs_cho (l : list ope) (acc : first_set) (st : fst_st) : outcome (first_set * fst_st) :=
      match l with
      | [] => Ok (acc, st)
      | o :: l' => let* (e, st1) := visit st o in fs_cho l' (fs_merge acc e) st1
      end.
  End Lists.

  (** visit(Reference), 4583-4627; [body] visits the rule through its Holder. *)
  Definition fs_ref (body : list rid -> fst_st -> rid -> outcome (first_set * fst_st))
    (R : list rid) (st : fst_st) (r : rid) : outcome (first_set * fst_st) :=
    let finish rfs st' :=
      Ok (fs_with (fs_chars rfs) (fs_can_be_empty rfs) (fs_any_char rfs) (fs_first_literal rfs)
            (or_else (fs_first_rule rfs) (if rule_is_token r then Some r else None)), st') in
    match cfind r (s_cache st) with
    | Some rfs => finish rfs st
    | None =>
      if existsb (Nat.eqb r) R then
        Ok (fs_empty, {| s_cache := s_cache st; s_cycles := S (s_cycles st) |})
      else
        let* (c, st1) := body (r :: R) st r in
        if s_cycles st1 =? s_cycles st
        then finish c {| s_cache := (r, c) :: s_cache st1; s_cycles := s_cycles st1 |}
        else finish c st1
    end.

  (** ComputeFirstSet.  [R] is [refs_]. *)
  Fixpoint cfs (body : list rid -> fst_st -> rid -> outcome (first_set * fst_st))
    (R : list rid) (st : fst_st) (o : ope) : outcome (first_set * fst_st) :=
    match o with
    | Seq _ l => fs_seq (cfs body R) l fs_empty st
    | Cho _ _ l => fs_cho (cfs body R) l fs_empty st
    | Rep e mn _ _ => let* (f, st1) := cfs body R st e in
                      Ok (if mn =? 0 then fs_or_empty f else f, st1)
    | And _ | Not _ | Cut => Ok (fs_nothing, st)
    | Dic t => Ok (fs_dic t, st)
    | Lit s ic => Ok (fs_lit s ic, st)
    | Cls rs neg ic => Ok (fs_cls rs neg ic, st)
    | Chr cp => Ok (fs_chr cp, st)
    | Dot | Usr _ | Bkr _ | Ref _ None _ _ _ => Ok (fs_any, st)
    | Csc e | Cap _ e | Tok e | Ign e | Wsp e | Rcv e | Pre e _ _ _ => cfs body R st e
    | Wkh r | Hld r => body R st r
    | Ref _ (Some r) _ _ _ => fs_ref body R st r
    | Nul => UB NullDeref
    end.
  (** visit(Holder) of TraversalVisitor, 2390: the rule's body.  [n] bounds the
      nesting of rules. *)
  Fixpoint cfs_rule (n : nat) (R : list rid) (st : fst_st) (r : rid) : outcome (first_set * fst_st) :=
    match n with
    | O => OutOfFuel
    | S n' =>
      match nth_error g r with
      | None => UB NullDeref
      | Some d => match r_body d with
                  | None => UB NullDeref
                  | Some b => cfs (cfs_rule n') R st b
                  end
      end
    end.

  (** ** SetupFirstSets *)

  (** setup_keyword_guarded_identifier, 4651-4748. *)
  Definition lit_of (o : ope) : option (bytes * bool) := match o with Lit s ic => Some (s, ic) | _ => None end.
  (** Keywords of the alternatives: (exact, prefix); [None] = bail out. *)
  Fixpoint kw_words (l : list ope) : option (list bytes * list bytes) :=
    match l with
    | [] => Some ([], [])
    | alt :: l' =>
      match alt with
      | Lit s ic =>
        if ic then match kw_words l' with Some (ex, pr) => Some (to_lower s :: ex, pr) | None => None end
        else None
      | Seq _ (Lit s ic :: l2) =>
        if ic && forallb (fun o => match o with Lit _ ic2 => ic2 | _ => false end) l2
        then match kw_words l' with Some (ex, pr) => Some (ex, to_lower s :: pr) | None => None end
        else None
      | _ => None
      end
    end.
  Definition kw_pattern (l : list ope) : option (rid * ope) :=
    match l with
    | [Not (Ref _ (Some r) _ _ _); Tok t] => Some (r, t)
    | _ => None
    end.
  Definition kw_class (t : ope) : option (bitset * bitset) :=
    match t with
    | Seq _ [Cls rs1 n1 i1; Rep (Cls rs2 n2 i2) _ _ _] =>
      match ascii_bitset rs1 n1 i1, ascii_bitset rs2 n2 i2 with
      | Some a, Some b => Some (a, b)
      | _, _ => None
      end
    | _ => None
    end.
  Definition kw_guard_of (l : list ope) : option kw_guard :=
    match kw_pattern l with
    | None => None
    | Some (r, t) =>
      match nth_error g r with
      | Some d =>
        match r_body d with
        | Some (Cho _ _ alts) =>
          match kw_words alts with
          | Some (ex, pr) =>
            match ex, kw_class t with
            | _ :: _, Some (a, b) =>
              let lens := map (@List.length byte) (ex ++ pr) in
              Some {| kg_first := a; kg_rest := b; kg_exact := ex; kg_prefix := pr;
                      kg_min := fold_right Nat.min (hd 0 lens) lens;
                      kg_max := fold_right Nat.max 0 lens |}
            | _, _ => None
            end
          | None => None
          end
        | _ => None
        end
      | None => None
      end
    end.

  (** visit(PrioritizedChoice), 3070-3081: one fresh ComputeFirstSet per alternative,
      sharing the cache. *)
  Fixpoint fs_alts (n : nat) (l : list ope) (cache : list (rid * first_set))
    : outcome (list first_set * list (rid * first_set)) :=
    match l with
    | [] => Ok ([], cache)
    | o :: l' =>
      let* (f, st) := cfs (cfs_rule n) [] {| s_cache := cache; s_cycles := 0 |} o in
      let* (fs, cache') := fs_alts n l' (s_cache st) in
      Ok (f :: fs, cache')
    end.

  (** first_set_cache_, visited_rules_, and the bodies annotated so far (the C++
      nodes are updated in place). *)
  Record setup_st := {
    u_cache : list (rid * first_set);
    u_seen : list rid;
    u_done : list (rid * ope)
  }.
  Section Setup.
    Variable n : nat.                               (* nesting bound of cfs_rule *)
    Variable rule : setup_st -> rid -> outcome setup_st.
    Section SetupList.
      Variable visit : setup_st -> ope -> outcome (ope * setup_st).
      Fixpoint setup_list (st : setup_st) (l : list ope) : outcome (list ope * setup_st) :=
        match l with
        | [] => Ok ([], st)
        | o :: l' =>
          let* (o', st1) := visit st o in
          let* (l2, st2) := setup_list st1 l' in
          Ok (o' :: l2, st2)
        end.
    End SetupList.
    Definition with_cache (st : setup_st) (c : list (rid * first_set)) : setup_st :=
      {| u_cache := c; u_seen := u_seen st; u_done := u_done st |}.
    (** The operand of a TraversalVisitor node; PrecedenceClimbing visits its atom
        only, a Reference its rule but not its arguments. *)
    Fixpoint setup_ope (st : setup_st) (o : ope) : outcome (ope * setup_st) :=
      match o with
      | Seq _ l => let* (l', st1) := setup_list setup_ope st l in Ok (Seq (kw_guard_of l) l', st1)
      | Cho fl _ l =>
        let* (fs, c) := fs_alts n l (u_cache st) in
        let* (l', st1) := setup_list setup_ope (with_cache st c) l in
        Ok (Cho fl fs l', st1)
      | Rep e mn mx sp =>
        let* (e', st1) := setup_ope st e in
        Ok (Rep e' mn mx (match e with Cls rs neg ic => or_else (ascii_bitset rs neg ic) sp | _ => sp end), st1)
      | And e => let* (e', st1) := setup_ope st e in Ok (And e', st1)
      | Not e => let* (e', st1) := setup_ope st e in Ok (Not e', st1)
      | Csc e => let* (e', st1) := setup_ope st e in Ok (Csc e', st1)
      | Cap nm e => let* (e', st1) := setup_ope st e in Ok (Cap nm e', st1)
      | Tok e => let* (e', st1) := setup_ope st e in Ok (Tok e', st1)
      | Ign e => let* (e', st1) := setup_ope st e in Ok (Ign e', st1)
      | Wsp e => let* (e', st1) := setup_ope st e in Ok (Wsp e', st1)
      | Rcv e => let* (e', st1) := setup_ope st e in Ok (Rcv e', st1)
      | Pre a b i r => let* (a', st1) := setup_ope st a in Ok (Pre a' b i r, st1)
      | Wkh r | Hld r | Ref _ (Some r) _ _ _ => let* st1 := rule st r in Ok (o, st1)
      | Ref _ None _ _ _ | Dic _ | Lit _ _ | Cls _ _ _ | Chr _ | Dot | Usr _ | Bkr _ | Cut => Ok (o, st)
      | Nul => UB NullDeref
      end.
  End Setup.
  (** visit(Holder), 4638-4641. *)
  Fixpoint setup_rule (k n : nat) (st : setup_st) (r : rid) : outcome setup_st :=
    if existsb (Nat.eqb r) (u_seen st) then Ok st
    else
      match k with
      | O => OutOfFuel
      | S k' =>
        match nth_error g r with
        | None => UB NullDeref
        | Some d =>
          match r_body d with
          | None => UB NullDeref
          | Some b =>
            let* (b', st1) := setup_ope n (setup_rule k' n)
                                {| u_cache := u_cache st; u_seen := r :: u_seen st; u_done := u_done st |} b in
            Ok {| u_cache := u_cache st1; u_seen := u_seen st1; u_done := (r, b') :: u_done st1 |}
          end
        end
      end.
  (** for (auto &x : grammar) x.second.accept(vis), 6445-6451: in the iteration order
      of the hash map. *)
  Fixpoint setup_all (k n : nat) (order : list rid) (st : setup_st) : outcome setup_st :=
    match order with
    | [] => Ok st
    | r :: order' => let* st1 := setup_rule k n st r in setup_all k n order' st1
    end.
End Compute.

Definition with_body (d : rule) (b : option ope) : rule :=
  {| r_name := r_name d; r_body := b; r_ignore := r_ignore d; r_is_macro := r_is_macro d;
     r_params := r_params d; r_disable_action := r_disable_action d; r_lr := r_lr d;
     r_can_be_empty := r_can_be_empty d; r_macro_ref := r_macro_ref d;
     r_error_message := r_error_message d; r_no_ast_opt := r_no_ast_opt d;
     r_no_whitespace := r_no_whitespace d; r_ast_name := r_ast_name d |}.
(** The grammar with the annotated bodies in place. *)
Definition apply_done (dn : list (rid * ope)) (g : grammar) : grammar :=
  map (fun p => match find (fun e => fst e =? fst p) dn with
                | Some e => with_body (snd p) (Some (snd e))
                | None => snd p
                end) (combine (seq 0 (List.length g)) g).
Definition setup_first_sets (k n : nat) (order : list rid) (g : grammar) : outcome grammar :=
  let* st := setup_all g k n order {| u_cache := []; u_seen := []; u_done := [] |} in
  Ok (apply_done (u_done st) g).
