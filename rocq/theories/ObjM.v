(** * The parser object: class parser, peglib.h 6790-7058.

    Its members: grammar_ (here with what each Definition holds besides its body:
    settings, callbacks, what earlier parses left), start_, enableLeftRecursion_,
    enablePackratParsing_ and whether a log or an error reporter is set.  A history is a
    list of calls of its methods; every call has a reply.

    Simplifications: what load_grammar itself logs is not part of the reply; parses are
    started by parse / parse_n only (SessionM.v has parses from any rule); the settings of
    other rules than the start rule cannot be changed; operator[] with an unknown name
    (which creates a rule nobody refers to) has no effect; no rules are given by
    combinators (Rules); the iteration order of the hash map of rules is a fixed
    function of the rules; enable_trace sets all tracers.  An exception or undefined
    behaviour in a method ends the history. *)
From Verif Require Import Base BaseLemmas Utf8 Escape TrieM LineInfo Ope Ctx ErrLog Engine Top IndepSpec PackratFilter SessionM.
From Verif Require LoadM MetaM BlobM.

Section Object.
  Context {V U : Type}.

  (** Definition::action, predicate, enter, leave, 3273-3286. *)
  Record hooks := {
    hk_action : option (bytes -> sv V -> U -> option V -> option V * U);
    hk_pred : option (bytes -> sv V -> U -> bool * bytes * option V);
    hk_enter : option (bytes -> nat -> U -> U);
    hk_leave : option (bytes -> nat -> option nat -> option V -> U -> option V * U) }.
  Definition hooks0 : hooks := {| hk_action := None; hk_pred := None; hk_enter := None; hk_leave := None |}.
  (** Definition::eoi_check, enablePackratParsing, tracer_enter .. tracer_end, verbose_trace,
      3296-3310. *)
  Record settings := { st_eoi : bool; st_packrat : bool; st_tracer : bool; st_verbose : bool }.
  Definition settings0 : settings := {| st_eoi := true; st_packrat := false; st_tracer := false; st_verbose := false |}.

  (** What grammar_ points to.  whitespaceOpe and wordOpe belong to the rule [h_main]
      which was the start rule when the grammar was made (6405-6422, 5352-5362). *)
  Record held := { h_g : grammar; h_main : option rid; h_ws : option ope; h_word : option ope;
                   h_set : rid -> settings; h_hooks : rid -> hooks; h_sess : sess }.
  Record obj := { o_held : option held; o_start : bytes; o_lr : bool; o_pk : bool; o_log : bool }.
  (** 7051-7057. *)
  Definition new_object : obj := {| o_held := None; o_start := []; o_lr := true; o_pk := false; o_log := false |}.

  Inductive op :=
  | OLoad (start text : bytes)                     (* load_grammar, 6819-6838, and the constructors *)
  | OBlob (blob : bytes)                           (* load_blob, 6848-6863 *)
  | OLeftRec (b : bool)                            (* enable_left_recursion *)
  | OLogger (b : bool)                             (* set_logger, set_error_reporter *)
  | ONoEoi                                         (* disable_eoi_check *)
  | OPackrat                                       (* enable_packrat_parsing *)
  | OTrace                                         (* enable_trace *)
  | OVerbose (b : bool)                            (* set_verbose_trace *)
  | OHook (name : bytes) (f : hooks -> hooks)      (* parser["X"] = action, .predicate = .., .enter = .. *)
  | OAst (f : rule -> bytes -> sv V -> U -> option V -> option V * U)   (* enable_ast *)
  | OParse (input : bytes) (dt : U).               (* parse *)
  Inductive reply :=
  | Done                                           (* a method without a result *)
  | Answer (b : bool)                              (* load_grammar, load_blob *)
  | Parsed (b : bool) (reports : list report) (r : option (result V U)).   (* parse; [None] without a grammar *)

  Variable fuel : nat.
  Variable keq : (rid * list ope) -> (rid * list ope) -> bool.
  Variable order : grammar -> grammar.
  Variable border : list rid.
  Variable sig : ope -> ope -> bool.
  Variable G : grammar.                            (* the grammar of grammars, 5462-5610 *)
  Variable u0 : U.

  Definition make (g : grammar) (main : option rid) ws word (set : rid -> settings) : held :=
    {| h_g := g; h_main := main; h_ws := ws; h_word := word; h_set := set; h_hooks := fun _ => hooks0; h_sess := sess0 |}.
  (** The Definition of rule [s] when a parse starts from it, with the members of the
      object that are passed to it, 6866-6909. *)
  Definition cfg (h : held) (log : bool) (s : rid) : pobj V U :=
    let mine := match h_main h with Some m => m =? s | None => false end in
    {| p_g := h_g h; p_start := s; p_ws := if mine then h_ws h else None; p_word := if mine then h_word h else None;
       p_packrat := st_packrat (h_set h s); p_slot := fun _ => None; p_cached := 0;
       p_eoi := st_eoi (h_set h s); p_tracer := st_tracer (h_set h s); p_verbose := st_verbose (h_set h s); p_log := log; p_u0 := u0;
       p_action := fun r => hk_action (h_hooks h r); p_pred := fun r => hk_pred (h_hooks h r);
       p_enter := fun r => hk_enter (h_hooks h r); p_leave := fun r => hk_leave (h_hooks h r);
       p_user := fun _ _ _ vs u => (None, vs, u) |}.

  Definition with_held (o : obj) (h : option held) : obj :=
    {| o_held := h; o_start := o_start o; o_lr := o_lr o; o_pk := o_pk o; o_log := o_log o |}.
  Definition on_start (o : obj) (f : settings -> settings) : obj :=
    match o_held o with
    | None => o
    | Some h =>
      match LoadM.rule_named (h_g h) (o_start o) with
      | None => o
      | Some s => with_held o (Some {| h_g := h_g h; h_main := h_main h; h_ws := h_ws h; h_word := h_word h;
                    h_set := fun r => if r =? s then f (h_set h r) else h_set h r; h_hooks := h_hooks h; h_sess := h_sess h |})
      end
    end.
  Definition with_hooks (h : held) (k : rid -> hooks) : held :=
    {| h_g := h_g h; h_main := h_main h; h_ws := h_ws h; h_word := h_word h; h_set := h_set h; h_hooks := k; h_sess := h_sess h |}.
  Definition with_sess (h : held) (s : sess) : held :=
    {| h_g := h_g h; h_main := h_main h; h_ws := h_ws h; h_word := h_word h; h_set := h_set h; h_hooks := h_hooks h; h_sess := s |}.
  Definition set_action (f : bytes -> sv V -> U -> option V -> option V * U) (k : hooks) : hooks :=
    match hk_action k with
    | Some _ => k
    | None => {| hk_action := Some f; hk_pred := hk_pred k; hk_enter := hk_enter k; hk_leave := hk_leave k |}
    end.
  (** deserialize, 5296-5299: start_ is written once the start name has been read. *)
  Definition blob_name (blob : bytes) : option bytes :=
    match BlobM.r32 blob with
    | Ok (m, b) => if (m =? BlobM.MAGIC)%N then match BlobM.rstr b with Ok (n, _) => Some n | _ => None end else None
    | _ => None
    end.
  Definition rule_of (h : held) (r : rid) (k : rule -> hooks) : hooks :=
    match nth_error (h_g h) r with Some d => k d | None => h_hooks h r end.

  Definition step (o : obj) (x : op) : outcome (obj * reply) :=
    match x with
    | OLoad start text =>
      let* (v, pk) := MetaM.load_text fuel keq (o_lr o) order G (o_log o) start text in
      match v with
      | None => UB NullDeref
      | Some LoadM.Rejected =>
        Ok ({| o_held := None; o_start := []; o_lr := o_lr o; o_pk := false; o_log := o_log o |}, Answer false)
      | Some (LoadM.Accepted L) =>
        Ok ({| o_held := Some (make (LoadM.ld_g L) (Some (LoadM.ld_start L)) (LoadM.ld_ws L) (LoadM.ld_word L) (fun _ => settings0));
               o_start := match nth_error (LoadM.ld_g L) (LoadM.ld_start L) with Some d => r_name d | None => start end;
               o_lr := o_lr o; o_pk := pk; o_log := o_log o |}, Answer true)
      end
    | OBlob blob =>
      match BlobM.load_blob fuel fuel border blob with
      | Ok L =>
        let main := LoadM.rule_named (BlobM.l_grammar L) (BlobM.l_start L) in
        let def r := nth_error (BlobM.l_defs L) r in
        Ok ({| o_held := Some (make (BlobM.l_grammar L) main (BlobM.l_ws L) (BlobM.l_word L)
                 (fun r => match def r with
                           | Some d => {| st_eoi := BlobM.d_eoi d; st_packrat := BlobM.d_packrat d; st_tracer := false; st_verbose := false |}
                           | None => settings0 end));
               o_start := BlobM.l_start L; o_lr := o_lr o;
               o_pk := match main with Some s => match def s with Some d => BlobM.d_packrat d | None => false end | None => false end;
               o_log := o_log o |}, Answer true)
      | Throw _ =>
        Ok ({| o_held := o_held o; o_start := match blob_name blob with Some n => n | None => o_start o end;
               o_lr := o_lr o; o_pk := o_pk o; o_log := o_log o |}, Answer false)
      | OutOfFuel => OutOfFuel
      | UB f => UB f
      end
    | OLeftRec b => Ok ({| o_held := o_held o; o_start := o_start o; o_lr := b; o_pk := o_pk o; o_log := o_log o |}, Done)
    | OLogger b => Ok ({| o_held := o_held o; o_start := o_start o; o_lr := o_lr o; o_pk := o_pk o; o_log := b |}, Done)
    | ONoEoi => Ok (on_start o (fun s => {| st_eoi := false; st_packrat := st_packrat s; st_tracer := st_tracer s; st_verbose := st_verbose s |}), Done)
    | OPackrat => Ok (on_start o (fun s => {| st_eoi := st_eoi s; st_packrat := o_pk o; st_tracer := st_tracer s; st_verbose := st_verbose s |}), Done)
    | OTrace => Ok (on_start o (fun s => {| st_eoi := st_eoi s; st_packrat := st_packrat s; st_tracer := true; st_verbose := st_verbose s |}), Done)
    | OVerbose b => Ok (on_start o (fun s => {| st_eoi := st_eoi s; st_packrat := st_packrat s; st_tracer := st_tracer s; st_verbose := b |}), Done)
    | OHook name f =>
      match o_held o with
      | None => UB NullDeref
      | Some h =>
        match LoadM.rule_named (h_g h) name with
        | None => Ok (o, Done)
        | Some q => Ok (with_held o (Some (with_hooks h (fun r => if r =? q then f (h_hooks h r) else h_hooks h r))), Done)
        end
      end
    | OAst f =>
      match o_held o with
      | None => UB NullDeref
      | Some h => Ok (with_held o (Some (with_hooks h (fun r => rule_of h r (fun d => set_action (f d) (h_hooks h r))))), Done)
      end
    | OParse input dt =>
      match o_held o with
      | None => Ok (o, Parsed false [] None)
      | Some h =>
        match LoadM.rule_named (h_g h) (o_start o) with
        | None => UB NullDeref                     (* the rule just created has no body *)
        | Some s =>
          let se := prepare (h_g h) (cfg h (o_log o)) sig s (h_sess h) in
          let* (x, r) := parser_parse fuel (start_at (h_g h) (cfg h (o_log o)) s se) input dt in
          let (b, reports) := x in
          Ok (with_held o (Some (with_sess h se)), Parsed b reports (Some r))
        end
      end
    end.
  (** The replies of a history. *)
  Fixpoint replies (o : obj) (l : list op) : outcome (list reply) :=
    match l with
    | [] => Ok []
    | x :: l' =>
      let* (o', a) := step o x in
      let* r := replies o' l' in
      Ok (a :: r)
    end.
End Object.
