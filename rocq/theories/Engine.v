(** * The parsing engine: every [parse_core] of peglib.h, one definition each.
    A position is an offset into the input; [n] (bytes left) is
    [length input - pos].  A parse returns the consumed length, [None] for
    [size_t(-1)].  Recursion through operators is open: each operator's
    definition gets [rec], the [Ope::parse] of its children; [parse] ties the
    knot with fuel.  Exhausted fuel is the outcome [OutOfFuel]. *)
From Verif Require Import Base Utf8 Escape TrieM LineInfo Ope Ctx ErrLog.

(** Everything fixed during one parse: the grammar, the Context constructor's
    const fields (peglib.h 1157-1197) and the user's callbacks.  Callbacks get
    the input so that spans can be read; they do not throw, and an action does
    not modify the SemanticValues it is given (simplifications). *)
Record env {V U : Type} := {
  e_g : grammar;
  e_input : bytes;
  e_ws : option ope;                    (* whitespaceOpe *)
  e_word : option ope;                  (* wordOpe *)
  e_packrat : bool;                     (* enablePackratParsing *)
  e_slot : rid -> option nat;           (* cache_slot: None = -1 *)
  e_cached : nat;                       (* packrat_cached_count *)
  e_has_cut : bool;
  e_tracer : bool;                      (* has_tracer *)
  e_verbose : bool;                     (* verbose_trace *)
  e_need_rules : bool;                  (* needs_rule_stack *)
  e_recog : bool;                       (* recognize_only *)
  e_u0 : U;                             (* an empty std::any dt *)
  e_action : rid -> option (bytes -> sv V -> U -> option V -> option V * U);
  e_pred : rid -> option (bytes -> sv V -> U -> bool * bytes * option V);
  e_enter : rid -> option (bytes -> nat -> U -> U);
  e_leave : rid -> option (bytes -> nat -> option nat -> option V -> U -> option V * U);
  e_user : nat -> bytes -> nat -> sv V -> U -> option nat * sv V * U
}.
Arguments env : clear implicits.

Section Engine.
  Context {V U : Type}.
  Notation env := (env V U).
  Notation ctx := (ctx V U).
  Notation sv := (sv V).
  Definition res := outcome (option nat * sv * ctx).

  Implicit Types (E : env) (c : ctx) (vs : sv).

  (** ** Small helpers *)

  Definition inlen E : nat := List.length (e_input E).
  Definition left E (pos : nat) : nat := inlen E - pos.

  (** vector::resize. *)
  Definition resize {A} (d : A) (n : nat) (l : list A) : list A :=
    firstn n l ++ repeat d (n - List.length l).

  Definition set_vals (x : list (option V)) vs : sv :=
    {| v_vals := x; v_tags := v_tags vs; v_toks := v_toks vs; v_sv := v_sv vs;
       v_cc := v_cc vs; v_ch := v_ch vs; v_name := v_name vs |}.
  Definition set_choice (cc ch : nat) vs : sv :=
    {| v_vals := v_vals vs; v_tags := v_tags vs; v_toks := v_toks vs; v_sv := v_sv vs;
       v_cc := cc; v_ch := ch; v_name := v_name vs |}.
  Definition set_toks (x : list (nat * nat)) vs : sv :=
    {| v_vals := v_vals vs; v_tags := v_tags vs; v_toks := x; v_sv := v_sv vs;
       v_cc := v_cc vs; v_ch := v_ch vs; v_name := v_name vs |}.
  Definition set_span (x : nat * nat) vs : sv :=
    {| v_vals := v_vals vs; v_tags := v_tags vs; v_toks := v_toks vs; v_sv := x;
       v_cc := v_cc vs; v_ch := v_ch vs; v_name := v_name vs |}.
  Definition set_name (x : option rid) vs : sv :=
    {| v_vals := v_vals vs; v_tags := v_tags vs; v_toks := v_toks vs; v_sv := v_sv vs;
       v_cc := v_cc vs; v_ch := v_ch vs; v_name := x |}.
  Definition push_val (v : option V) (tag : N) vs : sv :=
    {| v_vals := v_vals vs ++ [v]; v_tags := v_tags vs ++ [tag]; v_toks := v_toks vs;
       v_sv := v_sv vs; v_cc := v_cc vs; v_ch := v_ch vs; v_name := v_name vs |}.
  Definition push_tok (t : nat * nat) vs : sv := set_toks (v_toks vs ++ [t]) vs.

  (** SemanticValues::token(0), 603-607, as text. *)
  Definition sv_token E vs : bytes :=
    match v_toks vs with
    | [] => sub (e_input E) (fst (v_sv vs)) (snd (v_sv vs))
    | (p, l) :: _ => sub (e_input E) p l
    end.

  (** Context::rollback to the snapshot taken at ([vs0], [c0]), 1345-1382. *)
  Definition rollback_vs (vs0 vs : sv) : sv :=
    {| v_vals := resize None (List.length (v_vals vs0)) (v_vals vs);
       v_tags := resize 0%N (List.length (v_tags vs0)) (v_tags vs);
       v_toks := resize (0, 0) (List.length (v_toks vs0)) (v_toks vs);
       v_sv := v_sv vs0; v_cc := v_cc vs0; v_ch := v_ch vs0; v_name := v_name vs |}.
  Definition rollback_c (c0 c : ctx) : ctx :=
    set_caps (resize ([], []) (List.length (c_caps c0)) (c_caps c)) c.

  (** cut_stack.back() = b, guarded by !empty(). *)
  Definition set_cut_top (b : bool) c : ctx :=
    match c_cut c with [] => c | _ :: t => set_cut (b :: t) c end.
  Definition cut_top c : bool := match c_cut c with b :: _ => b | [] => false end.

  Definition get_rule E (r : rid) : outcome rule :=
    match nth_error (e_g E) r with Some d => Ok d | None => UB NullDeref end.

  Definition rule_is_token E (r : rid) : bool :=
    match nth_error (e_g E) r with
    | Some d => match r_body d with Some o => is_token_ope o | None => false end
    | None => false
    end.

  (** set_error_pos, 3609-3641. *)
  Fixpoint error_rule_of E (stk : list rid) (acc : option rid) : option rid :=
    match stk with
    | [] => acc
    | r :: stk' => if rule_is_token E r then Some r else error_rule_of E stk' (Some r)
    end.
  Definition set_error_pos E (pos : nat) (literal : option bytes) c : ctx :=
    if c_log c then
      if ole (ei_pos (c_err c)) pos then
        let e1 := if olt (ei_pos (c_err c)) pos || negb (ei_keep (c_err c))
                  then err_move pos (c_err c) else c_err c in
        let lit := match literal with
                   | Some l => Some l
                   | None =>
                     match c_rstk c with
                     | [] => None
                     | r :: _ =>
                       match nth_error (e_g E) r with
                       | Some d =>
                         match r_body d with
                         | Some o => match find_literal_token o with
                                     | Some (x00 :: _) => None
                                     | Some [] => None
                                     | t => t
                                     end
                         | None => None
                         end
                       | None => None
                       end
                     end
                   end in
        let rul := error_rule_of E (rev (c_rstk c)) None in
        match lit, rul with
        | None, None => set_err e1 c
        | _, _ => set_err (err_add lit rul e1) c
        end
      else c
    else c.

  (** A failing terminal. *)
  Definition fail_at E (pos : nat) vs c : res := Ok (None, vs, set_error_pos E pos None c).

  (** ** Parameters of the recursion *)
  Definition rec_t := env -> ope -> nat -> sv -> ctx -> res.

  (** Ope::parse with tracing, 3643-3673. *)
  Definition is_traceable E (o : ope) c : bool :=
    e_tracer E && negb (c_ign c) && match o with Ref _ _ _ _ _ => false | _ => true end.
  Definition traced E (o : ope) (pos : nat) (core : ctx -> res) c : res :=
    if is_traceable E o c then
      let c1 := set_evs (TEnter o pos :: c_evs c)
                 (set_tnext (S (c_tnext c)) (set_tids (c_tnext c :: c_tids c) c)) in
      let* (len, vs', c2) := core c1 in
      Ok (len, vs', set_tids (tl (c_tids c2)) (set_evs (TLeave o pos len :: c_evs c2) c2))
    else core c.

  (** skip_whitespace, 3600-3607. *)
  Definition skip_whitespace E (rec : rec_t) (pos : nat) vs c : res :=
    match e_ws E with
    | None => Ok (Some 0, vs, c)
    | Some w =>
      if 0 <? c_tb c then Ok (Some 0, vs, c)
      else
        let* (len, vs', c') := rec E w pos vs (set_ign (negb (e_verbose E)) c) in
        Ok (len, vs', set_ign (c_ign c) c')
    end.

  (** After a token of length [len]: skip whitespace and add up. *)
  Definition then_skip E (rec : rec_t) (pos len : nat) vs c : res :=
    let* (wl, vs', c') := skip_whitespace E rec (pos + len) vs c in
    Ok (match wl with Some w => Some (len + w) | None => None end, vs', c').

  (** The dummy contexts of the word check (3472-3473, 3483-3484, 3698-3699):
      no whitespace, word, packrat, tracer or log; has_cut defaults to true. *)
  Definition word_env E (inp : bytes) : env :=
    {| e_g := e_g E; e_input := inp; e_ws := None; e_word := None; e_packrat := false;
       e_slot := fun r => Some r; e_cached := 0; e_has_cut := true; e_tracer := false;
       e_verbose := false; e_need_rules := false; e_recog := false; e_u0 := e_u0 E;
       e_action := e_action E; e_pred := e_pred E; e_enter := e_enter E;
       e_leave := e_leave E; e_user := e_user E |}.
  Definition word_ctx E : ctx := ctx_new false (e_u0 E).

  (** [NotPredicate(wordOpe).parse] at [pos] in a dummy context. *)
  Definition not_word E (rec : rec_t) (w : ope) (pos : nat) : outcome bool :=
    let* (r, _, _) := rec (word_env E (e_input E)) (Not w) pos sv_new (word_ctx E) in
    Ok (match r with Some _ => true | None => false end).
  (** [is_word]: the literal itself starts with a word (3467-3479).  The C++ code
      computes it once per literal; the model recomputes the same value. *)
  Definition is_word E (rec : rec_t) (w : ope) (lit : bytes) : outcome bool :=
    let* (r, _, _) := rec (word_env E lit) w 0 sv_new (word_ctx E) in
    Ok (match r with Some _ => true | None => false end).

  (** ** Terminals *)

  (** Comparison loop of parse_literal, 3450-3461. *)
  Fixpoint lit_loop (inp : bytes) (pos n : nat) (pat : bytes) (ic : bool) : outcome bool :=
    match pat with
    | [] => Ok true
    | p :: pat' =>
      match n with
      | O => Ok false
      | S n' =>
        let* b := rd inp pos in
        if beq (if ic then tolower b else b) p then lit_loop inp (pos + 1) n' pat' ic
        else Ok false
      end
    end.

  (** parse_literal, 3446-3503.  The save/restore of ignore_trace_state around
      the word check is not observable (dummy contexts have no tracer). *)
  Definition parse_literal E (rec : rec_t) (lit : bytes) (ic : bool) (pos : nat) vs c : res :=
    let* ok := lit_loop (e_input E) pos (left E pos) (if ic then to_lower lit else lit) ic in
    if ok then
      let i := List.length lit in
      let* wok := (match e_word E with
                   | None => Ok true
                   | Some w =>
                     let* isw := is_word E rec w lit in
                     if isw then not_word E rec w (pos + i) else Ok true
                   end) in
      if wok then then_skip E rec pos i vs c
      else Ok (None, vs, set_error_pos E pos (Some lit) c)
    else Ok (None, vs, set_error_pos E pos (Some lit) c).

  (** Dictionary::parse_core, 3675-3718. *)
  Definition parse_dic E (rec : rec_t) (t : trie) (pos : nat) vs c : res :=
    let (i, id) := trie_match t (from (e_input E) pos) in
    if i =? 0 then fail_at E pos vs c
    else
      let vs1 := set_choice (t_items_count t) (match id with Some k => k | None => 0 end) vs in
      let* wok := (match e_word E with
                   | None => Ok true
                   | Some w => not_word E rec w (pos + i)
                   end) in
      if wok then then_skip E rec pos i vs1 c
      else fail_at E pos vs1 c.

  (** std::tolower on an int that must be an unsigned char. *)
  Definition tolower_int (cp : N) : outcome N :=
    if (cp <? 256)%N then Ok (bN (tolower (byteN cp))) else UB BadArg.

  (** CharacterClass::in_range, 1895-1903. *)
  Definition in_range (ic : bool) (r : N * N) (cp : N) : outcome bool :=
    if ic then
      let* cpl := tolower_int cp in
      let* lo := tolower_int (fst r) in
      if (lo <=? cpl)%N then let* hi := tolower_int (snd r) in Ok (cpl <=? hi)%N
      else Ok false
    else Ok ((fst r <=? cp) && (cp <=? snd r))%N.
  Fixpoint in_ranges (ic : bool) (rs : ranges) (cp : N) : outcome bool :=
    match rs with
    | [] => Ok false
    | r :: rs' => let* b := in_range ic r cp in if b then Ok true else in_ranges ic rs' cp
    end.

  (** CharacterClass::parse_core, 1852-1879. *)
  Definition parse_cls E (rs : ranges) (neg ic : bool) (pos : nat) vs c : res :=
    if left E pos =? 0 then fail_at E pos vs c
    else
      let* (len, cp) := decode_codepoint_len (from (e_input E) pos) (left E pos) 0%N in
      let* b := in_ranges ic rs cp in
      if xorb b neg then Ok (Some len, vs, c) else fail_at E pos vs c.

  (** Character::parse_core, 1931-1947. *)
  Definition parse_chr E (ch : N) (pos : nat) vs c : res :=
    if left E pos =? 0 then fail_at E pos vs c
    else
      let* (len, cp) := decode_codepoint_len (from (e_input E) pos) (left E pos) 0%N in
      if (cp =? ch)%N then Ok (Some len, vs, c) else fail_at E pos vs c.

  (** AnyCharacter::parse_core, 1956-1964. *)
  Definition parse_dot E (pos : nat) vs c : res :=
    let* len := codepoint_length (from (e_input E) pos) (left E pos) in
    if len <? 1 then fail_at E pos vs c else Ok (Some len, vs, c).

  (** ** Sequence *)

  (** parse_keyword_guarded, 1508-1553: [None] = nullopt. *)
  Fixpoint scan_while (s : bitset) (inp : bytes) (pos limit : nat) : outcome nat :=
    match limit with
    | O => Ok 0
    | S l' => let* b := rd inp pos in
              if btest s b then let* r := scan_while s inp (pos + 1) l' in Ok (S r) else Ok 0
    end.
  Definition parse_keyword_guarded E (rec : rec_t) (kw : kw_guard) (pos : nat) vs c
    : outcome (option (option nat * sv * ctx)) :=
    let fail c' : outcome (option (option nat * sv * ctx)) :=
      Ok (Some (None, vs, set_error_pos E pos None c')) in
    if left E pos <? 1 then fail c
    else
      let* b := rd (e_input E) pos in
      if btest (kg_first kw) b then
        let* k := scan_while (kg_rest kw) (e_input E) (pos + 1) (left E pos - 1) in
        let id_len := S k in
        let go := let vs1 := if e_recog E then vs else push_tok (pos, id_len) vs in
                  let* r := then_skip E rec pos id_len vs1 c in Ok (Some r) in
        if (kg_min kw <=? id_len) && (id_len <=? kg_max kw) then
          let lower := to_lower (sub (e_input E) pos id_len) in
          if existsb (bytes_eqb lower) (kg_exact kw) then fail c
          else if existsb (bytes_eqb lower) (kg_prefix kw) then Ok None
          else go
        else go
      else fail c.

  (** Sequence::parse_core, 1482-1498. *)
  Fixpoint seq_loop E (rec : rec_t) (l : list ope) (pos i : nat) vs c : res :=
    match l with
    | [] => Ok (Some i, vs, c)
    | o :: l' =>
      let* (r, vs', c') := rec E o (pos + i) vs c in
      match r with
      | None => Ok (None, vs', c')
      | Some len => seq_loop E rec l' pos (i + len) vs' c'
      end
    end.
  Definition parse_seq E (rec : rec_t) (kg : option kw_guard) (l : list ope) (pos : nat) vs c : res :=
    match kg with
    | Some kw =>
      let* r := parse_keyword_guarded E rec kw pos vs c in
      match r with
      | Some x => Ok x
      | None => seq_loop E rec l pos 0 vs c
      end
    | None => seq_loop E rec l pos 0 vs c
    end.

  (** ** PrioritizedChoice::parse_core, 1591-1642 *)

  (** First-set test, 1606-1627: may this alternative be skipped? *)
  Definition fs_skip E (fs : list first_set) (id pos : nat) : outcome bool :=
    if left E pos =? 0 then Ok false
    else match nth_error fs id with
         | None => Ok false
         | Some f =>
           if fs_any_char f || fs_can_be_empty f then Ok false
           else let* b := rd (e_input E) pos in Ok (negb (btest (fs_chars f) b))
         end.
  (** Error bookkeeping of a skipped alternative, 1609-1623. *)
  Definition fs_error (fs : list first_set) (id pos : nat) c : ctx :=
    match nth_error fs id with
    | None => c
    | Some f =>
      match fs_first_literal f, fs_first_rule f with
      | None, None => c
      | lit, rul =>
        if c_log c && ole (ei_pos (c_err c)) pos then
          let e1 := if olt (ei_pos (c_err c)) pos || (id =? 0)
                    then err_move pos (c_err c) else c_err c in
          set_err (match lit with Some l => err_add (Some l) None e1
                             | None => err_add None rul e1 end) c
        else c
      end
    end.
  Fixpoint cho_loop E (rec : rec_t) (fs : list first_set) (total : nat) (l : list ope)
    (id pos : nat) vs c : res :=
    match l with
    | [] => Ok (None, vs, c)
    | o :: l' =>
      let* skip := fs_skip E fs id pos in
      if skip then cho_loop E rec fs total l' (S id) pos vs (fs_error fs id pos c)
      else
        let c1 := if e_has_cut E then set_cut_top false c else c in
        let c2 := set_err (err_keep (0 <? id) (c_err c1)) c1 in
        let* (r, vs', c3) := rec E o pos vs c2 in
        match r with
        | Some len => Ok (Some len, set_choice total id vs', c3)
        | None =>
          let vs2 := rollback_vs vs vs' in
          let c4 := rollback_c c2 c3 in
          if e_has_cut E && cut_top c4 then Ok (None, vs2, c4)
          else cho_loop E rec fs total l' (S id) pos vs2 c4
        end
    end.
  Definition parse_cho E (rec : rec_t) (for_label : bool) (fs : list first_set) (l : list ope)
    (pos : nat) vs c : res :=
    let track := e_has_cut E && negb for_label in
    let c1 := if track then set_cut (false :: c_cut c) c else c in
    let* (r, vs', c2) := cho_loop E rec fs (List.length l) l 0 pos vs c1 in
    let c3 := set_err (err_keep false (c_err c2)) c2 in
    Ok (r, vs', if track then set_cut (tl (c_cut c3)) c3 else c3).

  (** ** Repetition::parse_core, 1665-1711 *)
  Fixpoint rep_min E (rec : rec_t) (e : ope) (m : nat) (pos i : nat) vs c : res :=
    match m with
    | O => Ok (Some i, vs, c)
    | S m' =>
      let* (r, vs', c') := rec E e (pos + i) vs c in
      match r with
      | None => Ok (None, vs', c')
      | Some len => rep_min E rec e m' pos (i + len) vs' c'
      end
    end.
  (** Second loop: [room] is [max_ - count], [None] when unbounded. *)
  Fixpoint rep_more (fuel : nat) E (rec : rec_t) (e : ope) (room : option nat) (pos i : nat) vs c : res :=
    match room with
    | Some O => Ok (Some i, vs, c)
    | _ =>
      match fuel with
      | O => OutOfFuel
      | S fuel' =>
        let* (r, vs', c') := rec E e (pos + i) vs c in
        match r with
        | None => Ok (Some i, rollback_vs vs vs', rollback_c c c')
        | Some len => rep_more fuel' E rec e (option_map pred room) pos (i + len) vs' c'
        end
      end
    end.
  Definition parse_rep (fuel : nat) E (rec : rec_t) (e : ope) (mn : nat) (mx : option nat)
    (span : option bitset) (pos : nat) vs c : res :=
    match span with
    | Some s =>
      let limit := match mx with None => left E pos | Some m => Nat.min (left E pos) m end in
      let* i := scan_while s (e_input E) pos limit in
      if i <? mn then Ok (None, vs, set_error_pos E (pos + i) None c) else Ok (Some i, vs, c)
    | None =>
      let* (r, vs', c') := rep_min E rec e mn pos 0 vs c in
      match r with
      | None => Ok (None, vs', c')
      | Some i =>
        match mx with
        | Some m => if mn <? m then rep_more fuel E rec e (Some (m - mn)) pos i vs' c'
                    else Ok (Some i, vs', c')
        | None => rep_more fuel E rec e None pos i vs' c'
        end
      end
    end.

  (** ** Predicates, 1744-1778 *)
  Definition parse_and E (rec : rec_t) (e : ope) (pos : nat) vs c : res :=
    let* (r, vs', c') := rec E e pos vs c in
    Ok (match r with Some _ => Some 0 | None => None end, rollback_vs vs vs', rollback_c c c').
  Definition parse_not E (rec : rec_t) (e : ope) (pos : nat) vs c : res :=
    let* (r, vs', c') := rec E e pos vs c in
    let vs2 := rollback_vs vs vs' in
    let c2 := rollback_c c c' in
    match r with
    | Some _ => Ok (None, vs2, set_error_pos E pos None c2)
    | None => Ok (Some 0, vs2, c2)
    end.

  (** ** Captures, 1973-1999 and 5862-5870; back references, 4150-4168 *)
  Definition parse_csc E (rec : rec_t) (e : ope) (pos : nat) vs c : res :=
    let* (r, vs', c') := rec E e pos vs c in Ok (r, vs', rollback_c c c').
  Definition parse_cap E (rec : rec_t) (name : bytes) (e : ope) (pos : nat) vs c : res :=
    let* (r, vs', c') := rec E e pos vs c in
    match r with
    | Some len => Ok (Some len, vs', set_caps (c_caps c' ++ [(name, sub (e_input E) pos len)]) c')
    | None => Ok (None, vs', c')
    end.
  Definition parse_bkr E (rec : rec_t) (name : bytes) (pos : nat) vs c : res :=
    match last_capture (c_caps c) name with
    | Some lit => parse_literal E rec lit false pos vs c
    | None =>
      Ok (None, vs, set_err (err_message pos (bs "undefined back reference '$" ++ name ++ bs "'...") None
                               (c_err c)) c)
    end.

  (** ** TokenBoundary, 3727-3750; Ignore 2024-2029; Whitespace 2131-2137 *)
  Definition parse_tok E (rec : rec_t) (e : ope) (pos : nat) vs c : res :=
    let ign0 := c_ign c in
    let c1 := set_tb (S (c_tb c)) (set_ign (negb (e_verbose E)) c) in
    let* (r, vs', c2) := rec E e pos vs c1 in
    let c3 := set_tb (pred (c_tb c2)) c2 in
    match r with
    | None => Ok (None, vs', set_ign ign0 c3)
    | Some len =>
      let vs1 := if e_recog E then vs' else push_tok (pos, len) vs' in
      let* (r', vs2, c4) := then_skip E rec pos len vs1 c3 in
      Ok (r', vs2, set_ign ign0 c4)
    end.
  Definition parse_ign E (rec : rec_t) (e : ope) (pos : nat) vs c : res :=
    let* (r, _, c') := rec E e pos sv_new c in Ok (r, vs, c').
  Definition parse_wsp E (rec : rec_t) (e : ope) (pos : nat) vs c : res :=
    if c_inws c then Ok (Some 0, vs, c)
    else
      let* (r, vs', c') := rec E e pos vs (set_inws true c) in
      Ok (r, vs', set_inws false c').

  (** User::parse_core, 2042-2046. *)
  Definition parse_usr E (id : nat) (pos : nat) vs c : res :=
    let '(r, vs', dt) := e_user E id (e_input E) pos vs (c_dt c) in
    Ok (r, vs', set_dt dt c).

  (** ** Rules *)

  Definition key_eqb (a b : lrkey) : bool := (fst a =? fst b) && (snd a =? snd b).
  Definition lr_find (m : list (lrkey * (option nat * option V))) (k : lrkey) :=
    match find (fun p => key_eqb (fst p) k) m with Some p => Some (snd p) | None => None end.
  Definition lr_erase (k : lrkey) (m : list (lrkey * (option nat * option V))) :=
    filter (fun p => negb (key_eqb (fst p) k)) m.
  Definition lr_set (k : lrkey) (v : option nat * option V) m := (k, v) :: lr_erase k m.

  (** Action wrappers installed by PrecedenceClimbing, 4178-4188: while they are
      installed the rule has an action, which records the token first. *)
  Definition wrapped c (r : rid) : bool := existsb (fun p => fst p =? r) (c_prec c).
  Definition has_action E c (r : rid) : bool :=
    wrapped c r || match e_action E r with Some _ => true | None => false end.
  Definition front (l : list (option V)) : option V := match l with v :: _ => v | [] => None end.
  Definition run_action E (r : rid) vs (pd : option V) c : option V * ctx :=
    let c1 := set_prec (map (fun p => if fst p =? r then (fst p, sv_token E vs) else p) (c_prec c)) c in
    match e_action E r with
    | Some f => let (v, dt) := f (e_input E) vs (c_dt c1) pd in (v, set_dt dt c1)
    | None => (front (v_vals vs), c1)
    end.

  (** Holder::reduce, 4049-4059. *)
  Definition reduce E (r : rid) (d : rule) vs (pd : option V) c : option V * ctx :=
    if has_action E c r && negb (r_disable_action d) then run_action E r vs pd c
    else (front (v_vals vs), c).

  (** Holder::parse_ope_body, 3796-3823. *)
  Definition parse_ope_body E (rec : rec_t) (r : rid) (d : rule) (body : ope) (pos : nat) vs c : res :=
    let push := e_need_rules E || r_macro_ref d in
    let c1 := if push then set_rstk (r :: c_rstk c) c else c in
    let* (len, vs', c2) :=
      (if r_no_whitespace d then
         let* (len, vs1, c3) := rec E body pos vs (set_tb (S (c_tb c1)) c1) in
         let c4 := set_tb (pred (c_tb c3)) c3 in
         match len with
         | Some k => then_skip E rec pos k vs1 c4
         | None => Ok (None, vs1, c4)
         end
       else rec E body pos vs c1) in
    Ok (len, vs', if push then set_rstk (tl (c_rstk c2)) c2 else c2).

  (** The lambda do_parse, 3872-3924. *)
  Definition do_parse E (rec : rec_t) (r : rid) (d : rule) (body : ope) (pos : nat) c
    : outcome (option nat * option V * ctx) :=
    let c1 := match e_enter E r with
              | Some f => set_dt (f (e_input E) pos (c_dt c)) c
              | None => c end in
    let* (len, chvs, c2) := parse_ope_body E rec r d body pos sv_new c1 in
    let '(len', val, c3) :=
      match len with
      | Some k =>
        let vs1 := set_name (Some r) (set_span (pos, k) chvs) in
        let inner := match body with Tok e => e | _ => body end in
        let vs2 := if is_choice_like inner then vs1 else set_choice 0 0 vs1 in
        match e_pred E r with
        | Some p =>
          let '(ok, msg, pd) := p (e_input E) vs2 (c_dt c2) in
          if ok then
            if c_rcv c2 then (Some k, None, c2)
            else let (v, c') := reduce E r d vs2 pd c2 in (Some k, v, c')
          else
            let c' := if c_log c2 && negb (match msg with [] => true | _ => false end)
                         && olt (ei_mpos (c_err c2)) pos
                      then set_err (err_message pos msg (Some (r_name d)) (c_err c2)) c2 else c2 in
            (None, None, c')
        | None =>
          if c_rcv c2 then (Some k, None, c2)
          else let (v, c') := reduce E r d vs2 None c2 in (Some k, v, c')
        end
      | None =>
        let c' := if c_log c2 && negb (match r_error_message d with [] => true | _ => false end)
                     && olt (ei_mpos (c_err c2)) pos
                  then set_err (err_message pos (resolve_capture_placeholders (r_error_message d) (c_caps c2))
                                  (Some (r_name d)) (c_err c2)) c2 else c2 in
        (None, None, c')
      end in
    match e_leave E r with
    | Some f => let (v, dt) := f (e_input E) pos len' val (c_dt c3) in Ok (len', v, set_dt dt c3)
    | None => Ok (len', val, c3)
    end.

  (** ** Packrat table *)
  Definition pk_idx E (slot pos : nat) : nat := e_cached E * pos + slot.
  Definition pk_size E : nat := e_cached E * (inlen E + 1).
  Definition nfind {A} (m : list (nat * A)) (k : nat) : option A :=
    match find (fun p => fst p =? k) m with Some p => Some (snd p) | None => None end.
  Definition nerase {A} (k : nat) (m : list (nat * A)) : list (nat * A) :=
    filter (fun p => negb (fst p =? k)) m.
  Definition nset {A} (k : nat) (v : A) m : list (nat * A) := (k, v) :: nerase k m.

  (** clear_packrat_cache, 1094-1105. *)
  Definition clear_packrat_cache E (pos : nat) (r : rid) c : ctx :=
    if e_packrat E then
      match e_slot E r with
      | None => c
      | Some slot =>
        let idx := pk_idx E slot pos in
        let c1 := if idx <? pk_size E then set_pkr (nerase idx (c_pkr c)) c else c in
        set_pkv (nerase idx (c_pkv c1)) c1
      end
    else c.

  (** write_packrat_cache, 1107-1133. *)
  Definition write_packrat_cache E (pos : nat) (r : rid) (len : nat) (val : option V) c : ctx :=
    if e_packrat E then
      match e_slot E r with
      | None => c
      | Some slot =>
        let idx := pk_idx E slot pos in
        if idx <? pk_size E then
          if (4294967295 <? N.of_nat len)%N then set_pkr (nerase idx (c_pkr c)) c
          else
            let c1 := set_pkr (nset idx (Some len) (c_pkr c)) c in
            match val with
            | Some v => set_pkv (nset idx v (c_pkv c1)) c1
            | None => set_pkv (nerase idx (c_pkv c1)) c1
            end
        else c
      end
    else c.

  (** Context::packrat, 1218-1270 (packrat enabled).  [fn] is the rule body. *)
  Definition packrat E (pos : nat) (r : rid) (fn : ctx -> outcome (option nat * option V * ctx)) c
    : outcome (option nat * option V * ctx) :=
    match e_slot E r with
    | None =>
      match nfind (c_actp c) r with
      | Some p =>
        if p =? pos then Ok (None, None, c)
        else
          let* (len, val, c') := fn (set_actp (nset r pos (c_actp c)) c) in
          Ok (len, val, set_actp (nset r p (c_actp c')) c')
      | None =>
        let* (len, val, c') := fn (set_actp (nset r pos (c_actp c)) c) in
        Ok (len, val, set_actp (nerase r (c_actp c')) c')
      end
    | Some slot =>
      let idx := pk_idx E slot pos in
      if idx <? pk_size E then
        match nfind (c_pkr c) idx with
        | Some (Some len) => Ok (Some len, nfind (c_pkv c) idx, c)
        | Some None => Ok (None, None, c)
        | None =>
          let* (len, val, c') := fn (set_pkr (nset idx None (c_pkr c)) c) in
          Ok (len, val, match len with Some k => write_packrat_cache E pos r k val c' | None => c' end)
        end
      else UB BadIndex
    end.

  (** Re-entry guard without packrat, 3861-3869 and 4025-4034. *)
  Definition guard (pos : nat) (r : rid) (fn : ctx -> outcome (option nat * option V * ctx)) c
    : outcome (option nat * option V * ctx) :=
    match lr_find (c_lrm c) (r, pos) with
    | Some _ => Ok (None, None, c)
    | None =>
      let* (len, val, c') := fn (set_lrm (lr_set (r, pos) (None, None) (c_lrm c)) c) in
      Ok (len, val, set_lrm (lr_erase (r, pos) (c_lrm c')) c')
    end.

  (** Growing the seed, 3987-4019. *)
  Definition clear_cycle (pos : nat) (r : rid) (cycle : list rid) c : ctx :=
    set_lrm (filter (fun p =>
       negb ((snd (fst p) =? pos) && negb (fst (fst p) =? r)
             && existsb (Nat.eqb (fst (fst p))) cycle
             && negb (existsb (key_eqb (fst p)) (c_acts c)))) (c_lrm c)) c.
  Fixpoint lr_grow (fuel : nat) E (rec : rec_t) (r : rid) (d : rule) (body : ope) (cycle : list rid)
    (pos len : nat) (val : option V) c : outcome (nat * option V * ctx) :=
    match fuel with
    | O => OutOfFuel
    | S fuel' =>
      let c1 := clear_packrat_cache E pos r c in
      let c2 := clear_cycle pos r cycle c1 in
      let* (nl, nv, c3) := do_parse E rec r d body pos c2 in
      match nl with
      | Some k =>
        if k <=? len then Ok (len, val, c3)
        else lr_grow fuel' E rec r d body cycle pos k nv
               (set_lrm (lr_set (r, pos) (Some k, nv) (c_lrm c3)) c3)
      | None => Ok (len, val, c3)
      end
    end.

  Definition rid_add (r : rid) (l : list rid) : list rid :=
    if existsb (Nat.eqb r) l then l else r :: l.

  (** Left-recursive rule, 3926-4022. *)
  Definition parse_lr (fuel : nat) E (rec : rec_t) (r : rid) (d : rule) (body : ope) (pos : nat) c
    : outcome (option nat * option V * ctx) :=
    let key := (r, pos) in
    match lr_find (c_lrm c) key with
    | Some (Some len, val) => Ok (Some len, val, set_hits (rid_add r (c_hits c)) c)
    | Some (None, _) => Ok (None, None, set_hits (rid_add r (c_hits c)) c)
    | None =>
      let saved := c_hits c in
      let c1 := set_hits [] (set_acts (key :: c_acts c)
                  (set_lrm (lr_set key (None, None) (c_lrm c)) c)) in
      let* (il, iv, c2) := do_parse E rec r d body pos c1 in
      let cycle := match c_hits c2 with [] => [] | h => rid_add r h end in
      let c3 := set_hits (fold_right rid_add saved cycle) c2 in
      let unseed c' := set_acts (filter (fun k => negb (key_eqb k key)) (c_acts c')) c' in
      match il with
      | None => Ok (None, None, unseed c3)
      | Some len0 =>
        let c4 := set_lrm (lr_set key (Some len0, iv) (c_lrm c3)) c3 in
        let* (len, val, c5) := lr_grow fuel E rec r d body cycle pos len0 iv c4 in
        Ok (Some len, val, unseed (write_packrat_cache E pos r len val c5))
      end
    end.

  (** Holder::parse_core, 3825-4047. *)
  Definition parse_hld (fuel : nat) E (rec : rec_t) (r : rid) (pos : nat) vs c : res :=
    let* d := get_rule E r in
    match r_body d with
    | None => Throw "Uninitialized definition ope was used..."
    | Some body =>
      if r_is_macro d then
        if r_lr d then Throw "left-recursive macro: not modelled"
        else
          let* (len, vs', c') := rec E body pos vs (set_rstk (r :: c_rstk c) c) in
          Ok (len, vs', set_rstk (tl (c_rstk c')) c')
      else if e_recog E && negb (r_lr d) then
        (* recognizer fast path: the body parses into the caller's scope *)
        if e_packrat E then
          match e_slot E r with
          | None =>
            match nfind (c_actp c) r with
            | Some p =>
              if p =? pos then Ok (None, vs, c)
              else
                let* (len, vs', c') := parse_ope_body E rec r d body pos vs (set_actp (nset r pos (c_actp c)) c) in
                Ok (len, vs', set_actp (nset r p (c_actp c')) c')
            | None =>
              let* (len, vs', c') := parse_ope_body E rec r d body pos vs (set_actp (nset r pos (c_actp c)) c) in
              Ok (len, vs', set_actp (nerase r (c_actp c')) c')
            end
          | Some slot =>
            let idx := pk_idx E slot pos in
            if idx <? pk_size E then
              match nfind (c_pkr c) idx with
              | Some len => Ok (len, vs, c)
              | None =>
                let* (len, vs', c') := parse_ope_body E rec r d body pos vs (set_pkr (nset idx None (c_pkr c)) c) in
                Ok (len, vs', match len with Some k => write_packrat_cache E pos r k None c' | None => c' end)
              end
            else UB BadIndex
          end
        else
          match lr_find (c_lrm c) (r, pos) with
          | Some _ => Ok (None, vs, c)
          | None =>
            let* (len, vs', c') := parse_ope_body E rec r d body pos vs
                 (set_lrm (lr_set (r, pos) (None, None) (c_lrm c)) c) in
            Ok (len, vs', set_lrm (lr_erase (r, pos) (c_lrm c')) c')
          end
      else
        let* (len, val, c') :=
          (if r_lr d then parse_lr fuel E rec r d body pos c
           else if e_packrat E then packrat E pos r (do_parse E rec r d body pos) c
           else guard pos r (do_parse E rec r d body pos) c) in
        match len with
        | Some k =>
          Ok (Some k,
              if negb (r_ignore d) && negb (e_recog E) then push_val val (str2tag (r_name d)) vs else vs,
              c')
        | None => Ok (None, vs, c')
        end
    end.

  (** ** Reference, 4085-4144 *)
  Definition top_args c : list ope := match c_args c with a :: _ => a | [] => [] end.
  Fixpoint subst_args (params : list bytes) (top : list ope) (l : list ope) : outcome (list ope) :=
    match l with
    | [] => Ok []
    | a :: l' => let* a' := find_reference params top a in
                 let* r := subst_args params top l' in Ok (a' :: r)
    end.
  Definition parse_dispatch E (rec : rec_t) (rl : option rid) (iarg : nat) (args : list ope)
    (pos : nat) vs c : res :=
    match rl with
    | Some r =>
      let* d := get_rule E r in
      if r_is_macro d then
        match c_rstk c with
        | [] => UB EmptyVector
        | top :: _ =>
          let* td := get_rule E top in
          let* args' := subst_args (r_params td) (top_args c) args in
          if r_lr d then Throw "left-recursive macro: not modelled"
          else
            let* (len, vs', c') := rec E (Hld r) pos vs (set_args (args' :: c_args c) c) in
            Ok (len, vs', set_args (tl (c_args c')) c')
        end
      else if negb (r_macro_ref d) && negb (r_lr d) && e_packrat E then rec E (Hld r) pos vs c
      else
        let* (len, vs', c') := rec E (Hld r) pos vs (set_args ([] :: c_args c) c) in
        Ok (len, vs', set_args (tl (c_args c')) c')
    | None =>
      match nth_error (top_args c) iarg with
      | Some a => rec E a pos vs c
      | None => UB BadIndex
      end
    end.
  Definition parse_ref E (rec : rec_t) (rl : option rid) (iarg : nat) (args : list ope)
    (pos : nat) vs c : res :=
    if e_tracer E then
      let ign := match rl with
                 | Some r => match nth_error (e_g E) r with Some d => r_ignore d | None => false end
                 | None => false end in
      let c1 := if ign then set_ign (negb (e_verbose E)) c else c in
      let* (len, vs', c') := parse_dispatch E rec rl iarg args pos vs c1 in
      Ok (len, vs', set_ign (c_ign c) c')
    else parse_dispatch E rec rl iarg args pos vs c.

  (** ** PrecedenceClimbing, 4170-4258 *)

  (** get_reference_for_binop, 4170-4181. *)
  Definition binop_rule E (rl : rid) (binop : ope) c : outcome rid :=
    let* d := get_rule E rl in
    match binop with
    | Ref _ br iarg _ _ =>
      if r_is_macro d then
        match nth_error (top_args c) iarg with
        | None => UB BadIndex
        | Some (Ref _ (Some r) _ _ _) => Ok r
        | Some (Ref _ None _ _ _) => UB NullDeref
        | Some _ => Throw "std::bad_cast"
        end
      else match br with Some r => Ok r | None => UB NullDeref end
    | _ => Throw "std::bad_cast"
    end.
  Definition binfo_find (info : binop_info) (tok : bytes) : option (nat * bool) :=
    match find (fun p => bytes_eqb (fst p) tok) info with Some p => Some (snd p) | None => None end.
  (** std::map keys are unique; the table lists each operator once. *)

  (** The [while] loop of parse_expression: [pos] is [s], [i] the bytes consumed. *)
  Fixpoint prec_loop (fuel : nat) E (rec : rec_t) (atom binop : ope) (info : binop_info) (rl : rid)
    (min_prec pos i : nat) vs c : res :=
    if pos + i <? inlen E then
      match fuel with
      | O => OutOfFuel
      | S fuel' =>
        let* (r, chvs, c1) := rec E binop (pos + i) sv_new c in
        match r with
        | None => Ok (Some i, vs, c1)
        | Some chlen =>
          let tok := match c_prec c1 with p :: _ => snd p | [] => [] end in
          match binfo_find info tok with
          | None => Ok (Some i, vs, c1)
          | Some (level, left_assoc) =>
            if level <? min_prec then Ok (Some i, vs, c1)
            else
              match v_vals chvs with
              | [] => UB BadIndex
              | opv :: _ =>
                let vs1 := set_vals (v_vals vs ++ [opv]) vs in
                let i1 := i + chlen in
                let next := if left_assoc then S level else level in
                (* recursive parse_expression *)
                let* (r2, chvs2, c2) :=
                  (let* (ra, va, ca) := rec E atom (pos + i1) sv_new c1 in
                   match ra with
                   | None => Ok (None, va, ca)
                   | Some la =>
                     let* br := binop_rule E rl binop ca in
                     let* (re, ve, ce) :=
                       prec_loop fuel' E rec atom binop info rl next (pos + i1) la va
                         (set_prec ((br, []) :: c_prec ca) ca) in
                     Ok (re, ve, set_prec (tl (c_prec ce)) ce)
                   end) in
                match r2 with
                | None => Ok (None, set_toks (v_toks vs) (set_vals (v_vals vs) vs1), c2)
                | Some l2 =>
                  match v_vals chvs2 with
                  | [] => UB BadIndex
                  | rv :: _ =>
                    let i2 := i1 + l2 in
                    let vs2 := set_vals (v_vals vs1 ++ [rv]) vs1 in
                    let '(val, vs3, c3) :=
                      (if has_action E c2 rl then
                         let vsx := set_span (pos, i2) vs2 in
                         let (v, cx) := run_action E rl vsx None c2 in (v, vsx, cx)
                       else (front (v_vals vs2), vs2, c2)) in
                    prec_loop fuel' E rec atom binop info rl min_prec pos i2
                      (set_vals [val] vs3) c3
                  end
                end
              end
          end
        end
      end
    else Ok (Some i, vs, c).
  Definition parse_prec (fuel : nat) E (rec : rec_t) (atom binop : ope) (info : binop_info) (rl : rid)
    (pos : nat) vs c : res :=
    let* (ra, va, ca) := rec E atom pos vs c in
    match ra with
    | None => Ok (None, va, ca)
    | Some la =>
      let* br := binop_rule E rl binop ca in
      let* (re, ve, ce) := prec_loop fuel E rec atom binop info rl 0 pos la va
                             (set_prec ((br, []) :: c_prec ca) ca) in
      Ok (re, ve, set_prec (tl (c_prec ce)) ce)
    end.

  (** ** Recovery, 4260-4313; Cut, 2204-2208 *)
  Definition parse_rcv E (rec : rec_t) (e : ope) (pos : nat) vs c : res :=
    match e with
    | Ref _ _ _ _ args =>
      let* c1 :=
        (if c_log c then
           match args with
           | [] => UB BadIndex
           | Ref _ lr _ _ _ :: _ =>
             match lr with
             | None => UB NullDeref
             | Some lrid =>
               let* d := get_rule E lrid in
               match r_error_message d with
               | [] => Ok c
               | m => Ok (set_err (err_message pos (resolve_capture_placeholders m (c_caps c))
                                     (Some (r_name d)) (c_err c)) c)
               end
             end
           | _ => Ok c
           end
         else Ok c) in
      let log0 := c_log c1 in
      let dt0 := c_dt c1 in
      let* (len, _, c2) := rec E e pos sv_new (set_dt (e_u0 E) (set_log false c1)) in
      let c3 := set_dt dt0 (set_log log0 c2) in
      let* c4 :=
        (match len with
         | Some _ =>
           let c' := set_rcv true c3 in
           if log0 then
             let* (ei, rp) := output_log (e_g E) (e_input E) (c_err c') in
             Ok (set_out (c_out c' ++ match rp with Some x => [x] | None => [] end)
                   (set_err (err_clear ei) c'))
           else Ok c'
         | None => Ok c3
         end) in
      Ok (len, vs, set_cut_top true c4)
    | _ => Throw "std::bad_cast"
    end.

  (** ** All operators *)
  Definition parse_core (fuel : nat) (rec : rec_t) E (o : ope) (pos : nat) vs c : res :=
    match o with
    | Seq kg l => parse_seq E rec kg l pos vs c
    | Cho fl fs l => parse_cho E rec fl fs l pos vs c
    | Rep e mn mx span => parse_rep fuel E rec e mn mx span pos vs c
    | And e => parse_and E rec e pos vs c
    | Not e => parse_not E rec e pos vs c
    | Dic t => parse_dic E rec t pos vs c
    | Lit s ic => parse_literal E rec s ic pos vs c
    | Cls rs neg ic => parse_cls E rs neg ic pos vs c
    | Chr cp => parse_chr E cp pos vs c
    | Dot => parse_dot E pos vs c
    | Csc e => parse_csc E rec e pos vs c
    | Cap n e => parse_cap E rec n e pos vs c
    | Tok e => parse_tok E rec e pos vs c
    | Ign e => parse_ign E rec e pos vs c
    | Usr id => parse_usr E id pos vs c
    | Wkh r => rec E (Hld r) pos vs c
    | Hld r => parse_hld fuel E rec r pos vs c
    | Ref _ rl iarg _ args => parse_ref E rec rl iarg args pos vs c
    | Wsp e => parse_wsp E rec e pos vs c
    | Bkr n => parse_bkr E rec n pos vs c
    | Pre a b info rl => parse_prec fuel E rec a b info rl pos vs c
    | Rcv e => parse_rcv E rec e pos vs c
    | Cut => Ok (Some 0, vs, set_cut_top true c)
    | Nul => UB NullDeref
    end.

  (** Ope::parse. *)
  Fixpoint parse (fuel : nat) E (o : ope) (pos : nat) vs c : res :=
    match fuel with
    | O => OutOfFuel
    | S fuel' => traced E o pos (parse_core fuel' (parse fuel') E o pos vs) c
    end.
End Engine.
