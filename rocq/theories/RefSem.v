(** * Reference semantics: what a grammar means, without any of the engine's
    machinery (no memo tables, re-entry guards, first sets, byte-set spans, keyword
    guards, recognizer mode, error bookkeeping, tracing or scratch state).

    [ref k] evaluates an expression with nesting depth at most [k]:
    [None] = not settled within [k]; [Some None] = the expression fails;
    [Some (Some (n, vs))] = it matches [n] bytes and leaves the semantic values
    [vs].  Used as the specification the engine is compared with.

    Covered operators: all but back references, custom parsers, cut, error
    recovery and left-recursive macros. *)
From Verif Require Import Base Utf8 Escape TrieM LineInfo Ope Ctx ErrLog Engine.

Definition obind {A B} (m : option A) (f : A -> option B) : option B :=
  match m with Some a => f a | None => None end.
Notation "'let?' x ':=' m 'in' k" := (obind m (fun x => k))
  (at level 200, x pattern, m at level 100, k at level 200, right associativity).

(** Inside a token boundary (whitespace is then not skipped); inside the
    whitespace expression. *)
Record mode := { m_tok : bool; m_ws : bool }.
Definition mode_eqb (a b : mode) : bool :=
  Bool.eqb (m_tok a) (m_tok b) && Bool.eqb (m_ws a) (m_ws b).
Definition m_top : mode := {| m_tok := false; m_ws := false |}.

(** Parameters and arguments of the macro being evaluated. *)
Definition fram := (list bytes * list ope)%type.

Definition out_of {A} (o : outcome A) : option A := match o with Ok a => Some a | _ => None end.

Section RefSem.
  Context {V U : Type}.
  Notation env := (env V U).
  Notation sv := (sv V).
  Implicit Types (E : env) (vs : sv) (m : mode).

  (** Result of an expression; result of a rule (its value instead of values). *)
  Definition rv := option (nat * sv).
  Definition rr := option (nat * option V).
  (** Current result of a directly left-recursive rule at a position, visible
      from the rule's own body only. *)
  Definition seed := option (rid * nat * rr).
  Definition ref_t := env -> seed -> fram -> mode -> ope -> nat -> sv -> option rv.

  Definition tok_mode E m : mode :=
    match e_ws E with Some _ => {| m_tok := true; m_ws := m_ws m |} | None => m end.
  Definition no_frame : fram := ([], []).

  Definition ref_skip (rec : ref_t) E m (pos : nat) vs : option rv :=
    match e_ws E with
    | None => Some (Some (0, vs))
    | Some w => if m_tok m then Some (Some (0, vs)) else rec E None no_frame m w pos vs
    end.
  (** [n] bytes matched; then skip whitespace. *)
  Definition ref_then (rec : ref_t) E m (pos n : nat) vs : option rv :=
    let? w := ref_skip rec E m (pos + n) vs in
    Some (match w with Some (k, vs') => Some (n + k, vs') | None => None end).

  Definition ref_is_word (rec : ref_t) E (w : ope) (lit : bytes) : option bool :=
    let? r := rec (word_env E lit) None no_frame m_top w 0 sv_new in
    Some (match r with Some _ => true | None => false end).
  Definition ref_not_word (rec : ref_t) E (w : ope) (pos : nat) : option bool :=
    let? r := rec (word_env E (e_input E)) None no_frame m_top (Not w) pos sv_new in
    Some (match r with Some _ => true | None => false end).

  Definition ref_lit (rec : ref_t) E m (lit : bytes) (ic : bool) (pos : nat) vs : option rv :=
    let? ok := out_of (lit_loop (e_input E) pos (left E pos) (if ic then to_lower lit else lit) ic) in
    if ok then
      let? wok := (match e_word E with
                   | None => Some true
                   | Some w => let? isw := ref_is_word rec E w lit in
                               if isw then ref_not_word rec E w (pos + List.length lit) else Some true
                   end) in
      if wok then ref_then rec E m pos (List.length lit) vs else Some None
    else Some None.
  Definition ref_dic (rec : ref_t) E m (t : trie) (pos : nat) vs : option rv :=
    let (i, id) := trie_match t (from (e_input E) pos) in
    if i =? 0 then Some None
    else
      let? wok := (match e_word E with
                   | None => Some true
                   | Some w => ref_not_word rec E w (pos + i)
                   end) in
      if wok then ref_then rec E m pos i
                    (set_choice (t_items_count t) (match id with Some k => k | None => 0 end) vs)
      else Some None.
  Definition ref_cls E (rs : ranges) (neg ic : bool) (pos : nat) vs : option rv :=
    if left E pos =? 0 then Some None
    else
      let? (len, cp) := out_of (decode_codepoint_len (from (e_input E) pos) (left E pos) 0%N) in
      let? b := out_of (in_ranges ic rs cp) in
      Some (if xorb b neg then Some (len, vs) else None).
  Definition ref_chr E (ch : N) (pos : nat) vs : option rv :=
    if left E pos =? 0 then Some None
    else
      let? (len, cp) := out_of (decode_codepoint_len (from (e_input E) pos) (left E pos) 0%N) in
      Some (if (cp =? ch)%N then Some (len, vs) else None).
  Definition ref_dot E (pos : nat) vs : option rv :=
    let? len := out_of (codepoint_length (from (e_input E) pos) (left E pos)) in
    Some (if len <? 1 then None else Some (len, vs)).

  Fixpoint ref_seq (run : ope -> nat -> sv -> option rv) (l : list ope) (pos i : nat) vs : option rv :=
    match l with
    | [] => Some (Some (i, vs))
    | o :: l' =>
      let? r := run o (pos + i) vs in
      match r with
      | None => Some None
      | Some (n, vs') => ref_seq run l' pos (i + n) vs'
      end
    end.
  Fixpoint ref_cho (run : ope -> nat -> sv -> option rv) (total : nat) (l : list ope) (id pos : nat) vs : option rv :=
    match l with
    | [] => Some None
    | o :: l' =>
      let? r := run o pos vs in
      match r with
      | Some (n, vs') => Some (Some (n, set_choice total id vs'))
      | None => ref_cho run total l' (S id) pos vs
      end
    end.
  Fixpoint ref_min (run : nat -> sv -> option rv) (n : nat) (pos i : nat) vs : option rv :=
    match n with
    | O => Some (Some (i, vs))
    | S n' =>
      let? r := run (pos + i) vs in
      match r with
      | None => Some None
      | Some (k, vs') => ref_min run n' pos (i + k) vs'
      end
    end.
  Fixpoint ref_more (fuel : nat) (run : nat -> sv -> option rv) (room : option nat) (pos i : nat) vs : option rv :=
    match room with
    | Some O => Some (Some (i, vs))
    | _ =>
      match fuel with
      | O => None
      | S fuel' =>
        let? r := run (pos + i) vs in
        match r with
        | None => Some (Some (i, vs))
        | Some (k, vs') => ref_more fuel' run (option_map pred room) pos (i + k) vs'
        end
      end
    end.
  Definition ref_rep (fuel : nat) (run : nat -> sv -> option rv) (mn : nat) (mx : option nat) (pos : nat) vs : option rv :=
    let? r := ref_min run mn pos 0 vs in
    match r with
    | None => Some None
    | Some (i, vs') =>
      match mx with
      | Some x => if mn <? x then ref_more fuel run (Some (x - mn)) pos i vs' else Some (Some (i, vs'))
      | None => ref_more fuel run None pos i vs'
      end
    end.

  (** The value of a rule that matched [n] bytes at [pos] leaving [chvs]:
      predicate, action and leave callback. *)
  Definition ref_value E (r : rid) (d : rule) (body : ope) (pos n : nat) (chvs : sv) : rr :=
    let vs1 := set_name (Some r) (set_span (pos, n) chvs) in
    let inner := match body with Tok e => e | _ => body end in
    let vs2 := if is_choice_like inner then vs1 else set_choice 0 0 vs1 in
    let red pd := match e_action E r with
                  | Some f => if r_disable_action d then front (v_vals vs2)
                              else fst (f (e_input E) vs2 (e_u0 E) pd)
                  | None => front (v_vals vs2)
                  end in
    let leave v := match e_leave E r with
                   | Some f => fst (f (e_input E) pos (Some n) v (e_u0 E))
                   | None => v
                   end in
    match e_pred E r with
    | Some p => let '(ok, _, pd) := p (e_input E) vs2 (e_u0 E) in
                if ok then Some (n, leave (red pd)) else None
    | None => Some (n, leave (red None))
    end.

  (** One evaluation of a rule's body. *)
  Definition ref_once (rec : ref_t) E (sd : seed) m (r : rid) (d : rule) (body : ope) (pos : nat) : option rr :=
    let? b := rec E sd (r_params d, []) (if r_no_whitespace d then tok_mode E m else m) body pos sv_new in
    match b with
    | None => Some None
    | Some (n, chvs) =>
      let? b' := (if r_no_whitespace d then ref_then rec E m pos n chvs else Some (Some (n, chvs))) in
      Some (match b' with
            | None => None
            | Some (n', chvs') => ref_value E r d body pos n' chvs'
            end)
    end.
  (** Left recursion: re-evaluate the body with the previous result as the
      meaning of the recursive call, as long as the match gets longer. *)
  Fixpoint ref_grow (fuel : nat) (once : rr -> option rr) (len : nat) (val : option V) : option rr :=
    match fuel with
    | O => None
    | S fuel' =>
      let? x := once (Some (len, val)) in
      match x with
      | Some (n, v) => if n <=? len then Some (Some (len, val)) else ref_grow fuel' once n v
      | None => Some (Some (len, val))
      end
    end.
  Definition ref_rule (fuel : nat) (rec : ref_t) E m (r : rid) (d : rule) (body : ope) (pos : nat) : option rr :=
    if r_lr d then
      let once s := ref_once rec E (Some (r, pos, s)) m r d body pos in
      let? x := once None in
      match x with
      | None => Some None
      | Some (len, val) => ref_grow fuel once len val
      end
    else ref_once rec E None m r d body pos.

  Definition get_body E (r : rid) : option (rule * ope) :=
    let? d := nth_error (e_g E) r in
    let? b := r_body d in Some (d, b).
  (** A call of rule [r], seen from outside. *)
  Definition ref_call (fuel : nat) (rec : ref_t) E m (r : rid) (pos : nat) : option rr :=
    let? (d, body) := get_body E r in ref_rule fuel rec E m r d body pos.

  Definition ref_hld (fuel : nat) (rec : ref_t) E (sd : seed) (fr : fram) m (r : rid) (pos : nat) vs : option rv :=
    let? (d, body) := get_body E r in
    if r_is_macro d then
      if r_lr d then None else rec E sd (r_params d, snd fr) m body pos vs
    else
      let? x := (match sd with
                 | Some (r0, p0, s) => if (r0 =? r) && (p0 =? pos) then Some s
                                       else ref_rule fuel rec E m r d body pos
                 | None => ref_rule fuel rec E m r d body pos
                 end) in
      Some (match x with
            | Some (n, val) => Some (n, if r_ignore d then vs else push_val val (str2tag (r_name d)) vs)
            | None => None
            end).

  Definition ref_reference (rec : ref_t) E (sd : seed) (fr : fram) m (rl : option rid) (iarg : nat)
    (args : list ope) (pos : nat) vs : option rv :=
    match rl with
    | Some r =>
      let? d := nth_error (e_g E) r in
      if r_is_macro d then
        let? args' := out_of (subst_args (fst fr) (snd fr) args) in
        if r_lr d then None else rec E sd (r_params d, args') m (Hld r) pos vs
      else rec E sd no_frame m (Hld r) pos vs
    | None => let? a := nth_error (snd fr) iarg in rec E sd fr m a pos vs
    end.

  (** Precedence climbing.  The token of the operator rule's match at [pos]: what
      [SemanticValues::token] returns to that rule's action. *)
  Definition ref_scope (rec : ref_t) E m (d : rule) (body : ope) (pos : nat) : option rv :=
    let? b := rec E None (r_params d, []) (if r_no_whitespace d then tok_mode E m else m) body pos sv_new in
    match b with
    | None => Some None
    | Some (n, chvs) => if r_no_whitespace d then ref_then rec E m pos n chvs else Some (Some (n, chvs))
    end.
  Definition ref_token (rec : ref_t) E m (binop : ope) (pos : nat) : option bytes :=
    match binop with
    | Ref _ (Some r) _ _ _ =>
      let? (d, body) := get_body E r in
      let? b := ref_scope rec E m d body pos in
      let? (n, chvs) := b in Some (sv_token E (set_span (pos, n) chvs))
    | _ => None
    end.
  (** [i] bytes of the expression at [pos] are matched and [vs] holds their value;
      go on while the next operator's level is at least [mn]. *)
  Fixpoint ref_climb (fuel : nat) E (run : ope -> nat -> sv -> option rv) (tok : nat -> option bytes)
    (atom binop : ope) (info : binop_info) (rl : rid) (mn pos i : nat) vs : option rv :=
    if pos + i <? inlen E then
      match fuel with
      | O => None
      | S fuel' =>
        let? r := run binop (pos + i) sv_new in
        match r with
        | None => Some (Some (i, vs))
        | Some (n, ov) =>
          let? t := tok (pos + i) in
          match binfo_find info t with
          | None => Some (Some (i, vs))
          | Some (level, left_assoc) =>
            if level <? mn then Some (Some (i, vs))
            else
              let? o := hd_error (v_vals ov) in
              let? ra := run atom (pos + (i + n)) sv_new in
              match ra with
              | None => Some None
              | Some (la, va) =>
                let? re := ref_climb fuel' E run tok atom binop info rl
                             (if left_assoc then S level else level) (pos + (i + n)) la va in
                match re with
                | None => Some None
                | Some (l2, ve) =>
                  let? b := hd_error (v_vals ve) in
                  let i2 := i + n + l2 in
                  let vs2 := set_vals ((v_vals vs ++ [o]) ++ [b]) vs in
                  let vs3 := match e_action E rl with
                             | Some f => let vsx := set_span (pos, i2) vs2 in
                                         set_vals [fst (f (e_input E) vsx (e_u0 E) None)] vsx
                             | None => set_vals [front (v_vals vs2)] vs2
                             end in
                  ref_climb fuel' E run tok atom binop info rl mn pos i2 vs3
                end
              end
          end
        end
      end
    else Some (Some (i, vs)).
  Definition ref_pre (fuel : nat) E (run : ope -> nat -> sv -> option rv) (tok : nat -> option bytes)
    (atom binop : ope) (info : binop_info) (rl : rid) (pos : nat) vs : option rv :=
    let? ra := run atom pos vs in
    match ra with
    | None => Some None
    | Some (la, va) => ref_climb fuel E run tok atom binop info rl 0 pos la va
    end.

  Definition ref_core (fuel : nat) (rec : ref_t) E (sd : seed) (fr : fram) m (o : ope) (pos : nat) vs : option rv :=
    match o with
    | Seq _ l => ref_seq (rec E sd fr m) l pos 0 vs
    | Cho _ _ l => ref_cho (rec E sd fr m) (List.length l) l 0 pos vs
    | Rep e mn mx _ => ref_rep fuel (rec E sd fr m e) mn mx pos vs
    | And e => let? r := rec E sd fr m e pos vs in
               Some (match r with Some _ => Some (0, vs) | None => None end)
    | Not e => let? r := rec E sd fr m e pos vs in
               Some (match r with Some _ => None | None => Some (0, vs) end)
    | Dic t => ref_dic rec E m t pos vs
    | Lit s ic => ref_lit rec E m s ic pos vs
    | Cls rs neg ic => ref_cls E rs neg ic pos vs
    | Chr cp => ref_chr E cp pos vs
    | Dot => ref_dot E pos vs
    | Csc e | Cap _ e => rec E sd fr m e pos vs
    | Tok e => let? r := rec E sd fr (tok_mode E m) e pos vs in
               match r with
               | None => Some None
               | Some (n, vs') => ref_then rec E m pos n (push_tok (pos, n) vs')
               end
    | Ign e => let? r := rec E sd fr m e pos sv_new in
               Some (match r with Some (n, _) => Some (n, vs) | None => None end)
    | Wkh r => rec E sd fr m (Hld r) pos vs
    | Hld r => ref_hld fuel rec E sd fr m r pos vs
    | Ref _ rl iarg _ args => ref_reference rec E sd fr m rl iarg args pos vs
    | Wsp e => if m_ws m then Some (Some (0, vs))
               else rec E sd fr {| m_tok := m_tok m; m_ws := true |} e pos vs
    | Pre atom binop info rl => ref_pre fuel E (rec E sd fr m) (ref_token rec E m binop) atom binop info rl pos vs
    | Usr _ | Bkr _ | Rcv _ | Cut | Nul => None
    end.
  Fixpoint ref (k : nat) E (sd : seed) (fr : fram) m (o : ope) (pos : nat) vs : option rv :=
    match k with
    | O => None
    | S k' => ref_core k' (ref k') E sd fr m o pos vs
    end.
  Definition call (k : nat) E m (r : rid) (pos : nat) : option rr :=
    match k with O => None | S k' => ref_call k' (ref k') E m r pos end.
End RefSem.
Arguments rv : clear implicits.
Arguments rr : clear implicits.
Arguments seed : clear implicits.
