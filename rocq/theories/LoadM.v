(** * Loading a grammar: what ParserGenerator::perform_core does once the grammar text
    has been parsed into operators (peglib.h 6287-6453).

    A source grammar is the list of its rules, in the iteration order of the
    std::unordered_map, with references not linked yet.  Not modelled: the parse of
    the grammar text (6197-6220), duplicate definitions, instructions and undefined
    back references (6238-6277), log messages, and rules given as operators whose
    operators contain holders of other rules. *)
From Verif Require Import Base BaseLemmas Utf8 Escape TrieM LineInfo Ope Ctx ErrLog Engine RefSem FirstSetM PackratFilter PrecSpec PrecM.

Definition bmem (n : bytes) (l : list bytes) : bool := existsb (bytes_eqb n) l.
Fixpoint bindex (n : bytes) (l : list bytes) : option nat :=
  match l with [] => None | x :: l' => if bytes_eqb x n then Some 0 else option_map S (bindex n l') end.
(** grammar_.count / grammar_.at. *)
Definition rule_named (g : grammar) (n : bytes) : option rid := bindex n (map r_name g).

(** ** ReferenceChecker, 2830-2845 and 4558-4581: no error is recorded. *)
Section Check.
  Variable g : grammar.
  Variable params : list bytes.
  Definition ref_ok (n : bytes) (mac : bool) (nargs : nat) : bool :=
    match rule_named g n with
    | None => false
    | Some r => match nth_error g r with
                | Some d => if r_is_macro d then mac && (nargs =? List.length (r_params d)) else negb mac
                | None => false
                end
    end.
  Fixpoint refs_ok (o : ope) : bool :=
    match o with
    | Seq _ l | Cho _ _ l => forallb refs_ok l
    | Rep e _ _ _ | And e | Not e | Csc e | Cap _ e | Tok e | Ign e | Wsp e | Rcv e => refs_ok e
    | Pre a _ _ _ => refs_ok a
    | Ref n _ _ mac args => bmem n params || (ref_ok n mac (List.length args) && forallb refs_ok args)
    | _ => true
    end.
End Check.
Definition body_ok (P : ope -> bool) (d : rule) : bool := match r_body d with Some b => P b | None => true end.
Definition all_refs_ok (g : grammar) : bool := forallb (fun d => body_ok (refs_ok g (r_params d)) d) g.

(** ** LinkReferences, 2848-2858 and 4919-4940. *)
Section Link.
  Variable g : grammar.
  Variable params : list bytes.
  Fixpoint link (o : ope) : ope :=
    match o with
    | Seq k l => Seq k (map link l)
    | Cho b f l => Cho b f (map link l)
    | Rep e mn mx s => Rep (link e) mn mx s
    | And e => And (link e) | Not e => Not (link e) | Csc e => Csc (link e) | Cap n e => Cap n (link e)
    | Tok e => Tok (link e) | Ign e => Ign (link e) | Wsp e => Wsp (link e) | Rcv e => Rcv (link e)
    | Pre a b i r => Pre (link a) b i r
    | Ref n rl ia mac args =>
      match bindex n params with
      | Some i => Ref n rl i mac (map link args)
      | None => Ref n (match rule_named g n with Some r => Some r | None => rl end) ia mac (map link args)
      end
    | _ => o
    end.
End Link.
Definition link_rule (g : grammar) (d : rule) : rule := with_body d (option_map (link g (r_params d)) (r_body d)).
Definition link_all (g : grammar) : grammar := map (link_rule g) g.

(** ** can_be_empty of every rule, 6361-6374: in-place iteration until nothing
    changes.  Linked grammars contain no holders, so [cbe_ope] enters nothing. *)
Definition set_empty (b : bool) (d : rule) : rule :=
  {| r_name := r_name d; r_body := r_body d; r_ignore := r_ignore d; r_is_macro := r_is_macro d; r_params := r_params d;
     r_disable_action := r_disable_action d; r_lr := r_lr d; r_can_be_empty := b; r_macro_ref := r_macro_ref d;
     r_error_message := r_error_message d; r_no_ast_opt := r_no_ast_opt d; r_no_whitespace := r_no_whitespace d; r_ast_name := r_ast_name d |}.
Definition set_lr (b : bool) (d : rule) : rule :=
  {| r_name := r_name d; r_body := r_body d; r_ignore := r_ignore d; r_is_macro := r_is_macro d; r_params := r_params d;
     r_disable_action := r_disable_action d; r_lr := b; r_can_be_empty := r_can_be_empty d; r_macro_ref := r_macro_ref d;
     r_error_message := r_error_message d; r_no_ast_opt := r_no_ast_opt d; r_no_whitespace := r_no_whitespace d; r_ast_name := r_ast_name d |}.
Definition empty_of (g : grammar) (d : rule) : bool := match r_body d with Some b => can_be_empty g b | None => false end.
Fixpoint set_nth {A} (l : list A) (n : nat) (x : A) : list A :=
  match l, n with [], _ => [] | _ :: l', O => x :: l' | y :: l', S n' => y :: set_nth l' n' x end.
(** One pass over the rules [todo, todo+1, ...]; the flag says whether something changed. *)
Fixpoint empty_pass (n : nat) (i : nat) (g : grammar) : grammar * bool :=
  match n with
  | O => (g, false)
  | S n' =>
    match nth_error g i with
    | None => (g, false)
    | Some d =>
      let b := empty_of g d in
      if Bool.eqb b (r_can_be_empty d) then empty_pass n' (S i) g
      else (fst (empty_pass n' (S i) (set_nth g i (set_empty b d))), true)
    end
  end.
Fixpoint empty_fix (fuel : nat) (g : grammar) : option grammar :=
  match fuel with
  | O => None
  | S fuel' => let (g', changed) := empty_pass (List.length g) 0 g in
               if changed then empty_fix fuel' g' else Some g'
  end.

(** ** DetectLeftRecursion, 2526-2606 and 4393-4479.  [keq]: equality of
    macro_inst_key (4071-4083), whose keys are addresses. *)
Record lr_st := { l_done : bool; l_err : bool; l_refs : list (rid * nat); l_inst : list (rid * list ope) }.
Definition lr_with (dn er : bool) (st : lr_st) : lr_st :=
  {| l_done := dn; l_err := er; l_refs := l_refs st; l_inst := l_inst st |}.
Definition lr_set_done (dn : bool) (st : lr_st) : lr_st := lr_with dn (l_err st) st.
Definition lr_set_refs (refs : list (rid * nat)) (st : lr_st) : lr_st :=
  {| l_done := l_done st; l_err := l_err st; l_refs := refs; l_inst := l_inst st |}.
Definition lr_set_inst (i : list (rid * list ope)) (st : lr_st) : lr_st :=
  {| l_done := l_done st; l_err := l_err st; l_refs := l_refs st; l_inst := i |}.
Definition lr_st0 : lr_st := {| l_done := false; l_err := false; l_refs := []; l_inst := [] |}.

Section Lr.
  Variable g : grammar.
  Variable keq : rid * list ope -> rid * list ope -> bool.
  Variable name : bytes.
  (** Frames of macro arguments, innermost first (macro_args_stack_ has it last). *)
  Definition frames := list (list ope).
  (** resolve_macro_arg, 4464-4479: the operator and the frames it was written in. *)
  Fixpoint resolve (fs : frames) (iarg : nat) : option (ope * frames) :=
    match fs with
    | [] => None
    | args :: fs' => match nth_error args iarg with
                     | None => None
                     | Some (Ref _ None ia _ _) => resolve fs' ia
                     | Some a => Some (a, fs')
                     end
    end.
  (** intern_macro_inst, 4433-4450. *)
  Definition resolved_args (fs : frames) (args : list ope) : list ope :=
    map (fun a => match a with Ref _ None ia _ _ => match resolve fs ia with Some (x, _) => x | None => a end | _ => a end) args.
  Fixpoint key_index (k : rid * list ope) (l : list (rid * list ope)) : option nat :=
    match l with [] => None | x :: l' => if keq x k then Some 0 else option_map S (key_index k l') end.
  Definition intern (fs : frames) (r : rid) (args : list ope) (st : lr_st) : nat * lr_st :=
    let k := (r, resolved_args fs args) in
    match key_index k (l_inst st) with
    | Some i => (S i, st)
    | None => (S (List.length (l_inst st)), lr_set_inst (l_inst st ++ [k]) st)
    end.
  Definition rn_mem (x : rid * nat) (l : list (rid * nat)) : bool := existsb (fun y => (fst y =? fst x) && (snd y =? snd x)) l.
  Definition rule_empty (rl : option rid) : bool :=
    match rl with Some r => match nth_error g r with Some d => r_can_be_empty d | None => false end | None => false end.

  Variable enter : frames -> ope -> lr_st -> option lr_st.
  Fixpoint lr_ope (fs : frames) (o : ope) (st : lr_st) {struct o} : option lr_st :=
    let fix seq l st := match l with
                        | [] => Some st
                        | x :: l' => match lr_ope fs x st with
                                     | None => None
                                     | Some st1 => if l_done st1 then Some st1
                                                   else if l_err st1 then Some (lr_set_done true st1)
                                                   else seq l' st1
                                     end
                        end in
    let fix cho l st := match l with
                        | [] => Some st
                        | x :: l' => match lr_ope fs x st with
                                     | None => None
                                     | Some st1 => if l_err st1 then Some (lr_set_done true st1) else cho l' st1
                                     end
                        end in
    match o with
    | Seq _ l => seq l st
    | Cho _ _ l => cho l st
    | Rep e mn _ _ => option_map (lr_set_done (0 <? mn)) (lr_ope fs e st)
    | And e | Not e => option_map (lr_set_done false) (lr_ope fs e st)
    | Dic _ | Cls _ _ _ | Chr _ | Dot | Usr _ | Bkr _ | Cut => Some (lr_set_done true st)
    | Lit s _ => Some (lr_set_done (match s with [] => false | _ => true end) st)
    | Csc e | Cap _ e | Tok e | Ign e | Wsp e | Rcv e => lr_ope fs e st
    | Pre a _ _ _ => lr_ope fs a st
    | Wkh r | Hld r => match nth_error g r with
                       | Some d => match r_body d with Some b => enter fs b st | None => None end
                       | None => None
                       end
    | Nul => None
    | Ref n rl ia mac args =>
      let param := match rl with None => resolve fs ia | Some _ => None end in
      (* the end of the function, 4420-4430 *)
      let last st := Some (lr_set_done (match rl, fs with
                                        | None, _ :: _ => match param with Some (a, _) => negb (can_be_empty g a) | None => true end
                                        | _, _ => negb (rule_empty rl)
                                        end) st) in
      let after x := match x with None => None | Some st1 => if l_done st1 then last st1 else Some st1 end in
      if bytes_eqb n name then last (lr_with (l_done st) true st)
      else match param with
      | Some (a, fs') => after (enter fs' a st)
      | None =>
        if mac && (32 <=? List.length fs) then last st
        else match rl with
        | None => last st
        | Some r =>
          let (i, st1) := if mac then intern fs r args st else (0, st) in
          if rn_mem (r, i) (l_refs st1) then last st1
          else match nth_error g r with
               | Some d => match r_body d with
                           | Some b => after (enter (if mac then args :: fs else fs) b (lr_set_refs ((r, i) :: l_refs st1) st1))
                           | None => None
                           end
               | None => None
               end
        end
      end
    end.
End Lr.
(** [fuel] bounds the nesting of rules and arguments. *)
Fixpoint lr_enter (fuel : nat) (g : grammar) keq (name : bytes) (fs : frames) (o : ope) (st : lr_st) : option lr_st :=
  match fuel with O => None | S fuel' => lr_ope g keq name (lr_enter fuel' g keq name) fs o st end.
(** 6377-6381, 6386-6390: is an error recorded for rule [d]? *)
Definition lr_detect (fuel : nat) (g : grammar) keq (d : rule) : option bool :=
  match r_body d with Some b => option_map l_err (lr_enter fuel g keq (r_name d) [] b lr_st0) | None => None end.
Fixpoint option_all {A B} (f : A -> option B) (l : list A) : option (list B) :=
  match l with
  | [] => Some []
  | x :: l' => match f x, option_all f l' with Some y, Some ys => Some (y :: ys) | _, _ => None end
  end.
(** The flags of all rules; none is set while the others are computed (the analysis
    does not read them). *)
Definition lr_flags (fuel : nat) (g : grammar) keq : option (list bool) := option_all (lr_detect fuel g keq) g.
Fixpoint set_lrs (fl : list bool) (g : grammar) : grammar :=
  match fl, g with b :: fl', d :: g' => set_lr (b || r_lr d) d :: set_lrs fl' g' | _, _ => g end.

(** ** HasEmptyElement, 2739-2778 and 4481-4530, and DetectInfiniteLoop, 2780-2828 and
    4532-4556.  [dm]: in DetectInfiniteLoop.  The state is is_empty / has_error and
    has_error_cache_; [refs] are the names in refs_. *)
Definition loop_st := (bool * list (bytes * bool))%type.
Definition cache_find (c : list (bytes * bool)) (n : bytes) : option bool :=
  match find (fun x => bytes_eqb (fst x) n) c with Some (_, b) => Some b | None => None end.
Section Loop.
  Variable g : grammar.
  Variable enter : bool -> list bytes -> ope -> loop_st -> option loop_st.
  Fixpoint loop_ope (dm : bool) (refs : list bytes) (o : ope) (st : loop_st) {struct o} : option loop_st :=
    (* until the flag is set: the Sequence (2794-2799) and PrioritizedChoice
       (2800-2805) of DetectInfiniteLoop, the PrioritizedChoice of HasEmptyElement *)
    let fix until l st := match l with
                          | [] => Some st
                          | x :: l' => match loop_ope dm refs x st with
                                       | None => None
                                       | Some st1 => if fst st1 then Some st1 else until l' st1
                                       end
                          end in
    (* 4493-4501 *)
    let fix rest l st := match l with
                         | [] => Some st
                         | x :: l' => match loop_ope true refs x (false, snd st) with
                                      | None => None
                                      | Some (b, c) => rest l' (fst st || b, c)
                                      end
                         end in
    (* 4481-4515 *)
    let fix hseq save l st := match l with
                              | [] => Some (save, snd st)
                              | x :: l' => match loop_ope false refs x st with
                                           | None => None
                                           | Some (b, c) => if b then hseq true l' (false, c) else rest l' (false, c)
                                           end
                              end in
    match o with
    | Seq _ l => if dm then until l st else hseq false l st
    | Cho _ _ l => until l st
    | Rep e mn mx _ =>
      if dm then
        match mx with
        | None => match loop_ope false refs e (false, snd st) with None => None | Some (b, c) => Some (fst st || b, c) end
        | Some _ => loop_ope true refs e st
        end
      else if mn =? 0 then Some (true, snd st) else loop_ope false refs e st
    | And e | Not e => if dm then loop_ope true refs e st else Some (true, snd st)
    | Lit s _ => Some (fst st || (negb dm && match s with [] => true | _ => false end), snd st)
    | Csc e | Cap _ e | Tok e | Ign e | Wsp e | Rcv e => loop_ope dm refs e st
    | Pre a _ _ _ => loop_ope dm refs a st
    | Wkh r | Hld r => match nth_error g r with
                       | Some d => match r_body d with Some b => enter dm refs b st | None => None end
                       | None => None
                       end
    | Nul => None
    | Ref n rl _ mac args =>
      if bmem n refs then Some st
      else
        let body r st := match nth_error g r with
                         | Some d => match r_body d with Some b => enter dm (n :: refs) b st | None => None end
                         | None => None
                         end in
        if dm then
          let st1 := match rl with
                     | None => Some st
                     | Some r => match cache_find (snd st) n with
                                 | Some b => Some (b, snd st)
                                 | None => match body r st with None => None | Some (b, c) => Some (b, (n, b) :: c) end
                                 end
                     end in
          let fix all l st := match l with
                              | [] => Some st
                              | x :: l' => match loop_ope true refs x st with None => None | Some st' => all l' st' end
                              end in
          match st1 with None => None | Some st2 => if mac then all args st2 else Some st2 end
        else match rl with Some r => body r st | None => Some st end
    | _ => Some st
    end.
End Loop.
Fixpoint loop_enter (fuel : nat) (g : grammar) (dm : bool) (refs : list bytes) (o : ope) (st : loop_st) : option loop_st :=
  match fuel with O => None | S fuel' => loop_ope g (loop_enter fuel' g) dm refs o st end.
(** detect_infiniteLoop, 6456-6471. *)
Definition loop_detect (fuel : nat) (g : grammar) (r : rid) : option bool :=
  match nth_error g r with
  | Some d => match r_body d with Some b => option_map fst (loop_enter fuel g true [r_name d] b (false, [])) | None => None end
  | None => None
  end.

(** ** Instructions, 6418-6442. *)
Inductive instr :=
| IPrecedence (ls : table_lines)
| IMessage (s : bytes)
| INoAstOpt
| INoWhitespace
| IAstName (s : bytes).
Definition set_body_disable (b : ope) (d : rule) : rule :=
  {| r_name := r_name d; r_body := Some b; r_ignore := r_ignore d; r_is_macro := r_is_macro d; r_params := r_params d;
     r_disable_action := true; r_lr := r_lr d; r_can_be_empty := r_can_be_empty d; r_macro_ref := r_macro_ref d;
     r_error_message := r_error_message d; r_no_ast_opt := r_no_ast_opt d; r_no_whitespace := r_no_whitespace d; r_ast_name := r_ast_name d |}.
Definition set_opts (msg : bytes) (noopt nows : bool) (an : bytes) (d : rule) : rule :=
  {| r_name := r_name d; r_body := r_body d; r_ignore := r_ignore d; r_is_macro := r_is_macro d; r_params := r_params d;
     r_disable_action := r_disable_action d; r_lr := r_lr d; r_can_be_empty := r_can_be_empty d; r_macro_ref := r_macro_ref d;
     r_error_message := msg; r_no_ast_opt := noopt; r_no_whitespace := nows; r_ast_name := an |}.
(** [None]: the grammar is rejected. *)
Definition instruct (r : rid) (i : instr) (d : rule) : option rule :=
  match i with
  | IPrecedence ls => match r_body d with
                      | Some b => match apply_precedence r (prec_table ls) b with Some b' => Some (set_body_disable b' d) | None => None end
                      | None => None
                      end
  | IMessage s => Some (set_opts s (r_no_ast_opt d) (r_no_whitespace d) (r_ast_name d) d)
  | INoAstOpt => Some (set_opts (r_error_message d) true (r_no_whitespace d) (r_ast_name d) d)
  | INoWhitespace => Some (set_opts (r_error_message d) (r_no_ast_opt d) true (r_ast_name d) d)
  | IAstName s => Some (set_opts (r_error_message d) (r_no_ast_opt d) (r_no_whitespace d) s d)
  end.
Fixpoint instruct_all (l : list (rid * instr)) (g : grammar) : option grammar :=
  match l with
  | [] => Some g
  | (r, i) :: l' => match nth_error g r with
                    | None => None
                    | Some d => match instruct r i d with None => None | Some d' => instruct_all l' (set_nth g r d') end
                    end
  end.

(** ** Literal rules become tokens when there is %whitespace, 6400-6407. *)
Definition tok_rule (d : rule) : rule :=
  match r_body d with Some b => if is_literal_token b then with_body d (Some (Tok b)) else d | None => d end.

(** ** perform_core, 6287-6453. *)
Record loaded := { ld_g : grammar; ld_start : rid; ld_ws : option ope; ld_word : option ope }.
Inductive verdict := Rejected | Accepted (l : loaded).
Definition ws_name : bytes := bs "%whitespace".
Definition word_name : bytes := bs "%word".
(** [None]: [fuel] does not suffice, or behaviour is undefined (a rule without a
    body, an unknown start rule). *)
Definition load (fuel : nat) keq (left_recursion : bool) (instrs : list (rid * instr)) (start : bytes) (src : grammar) : option verdict :=
  match rule_named src start with
  | None => None
  | Some s =>
    match nth_error src s with
    | None => None
    | Some sd =>
      if negb (forallb (fun d => match r_body d with Some _ => true | None => false end) src) then None
      else if r_ignore sd then Some Rejected                        (* 6293-6303 *)
      else if negb (all_refs_ok src) then Some Rejected             (* 6317-6328, 6340 *)
      else
        let? g1 := empty_fix fuel (link_all src) in                 (* 6343-6374 *)
        let? fl := lr_flags fuel g1 keq in                          (* 6376-6395 *)
        if negb left_recursion && existsb (fun b => b) fl then Some Rejected
        else
          let g2 := if left_recursion then set_lrs fl g1 else g1 in
          let? l1 := loop_detect fuel g2 s in                       (* 6397 *)
          if l1 then Some Rejected
          else
            let g3 := match rule_named g2 ws_name with Some _ => map tok_rule g2 | None => g2 end in
            (* the operators of %whitespace and %word are shared with those rules, so the
               annotations of SetupFirstSets show; a precedence instruction on one of
               them (which would not show) is not modelled *)
            let core g n := match rule_named g n with
                            | Some r => match nth_error g r with Some d => r_body d | None => None end
                            | None => None
                            end in
            let? l2 := (match rule_named g3 ws_name with Some r => loop_detect fuel g3 r | None => Some false end) in
            if l2 then Some Rejected
            else
              let? l3 := (match rule_named g3 word_name with Some r => loop_detect fuel g3 r | None => Some false end) in
              if l3 then Some Rejected
              else
                match instruct_all instrs g3 with
                | None => Some Rejected
                | Some g4 =>
                  match setup_first_sets fuel fuel (seq 0 (List.length g4)) g4 with
                  | Ok g5 => Some (Accepted {| ld_g := g5; ld_start := s; ld_ws := option_map (fun e => Wsp (Ign e)) (core g5 ws_name); ld_word := core g5 word_name |})
                  | _ => None
                  end
                end
    end
  end.
