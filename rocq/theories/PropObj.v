(** * C58: histories of a parser object. *)
From Verif Require Import Base BaseLemmas Utf8 Escape TrieM LineInfo Ope Ctx ErrLog Engine Top IndepSpec PackratFilter SessionM ObjM ObjSpec ObjProofs PropIndep.
From Verif Require LoadM MetaM BlobM PropLoad PropMeta PropBlob.

(** Whatever was done to the object before the last load_grammar, and whatever parses were
    done since: a parse gives what a new parser gives that has the rules of the text, the
    settings and callbacks applied since the load, and the last logger; of what went before
    the load only the last enable_left_recursion and the logger matter, for the load. *)
Theorem C58_history : forall (V U : Type) fuel keq order border sig G (u0 : U) (h1 : list (@op V U)) start text h2 input dt rs,
  forallb (fun x => negb (makes_grammar x)) h2 = true ->
  replies fuel keq order border sig G u0 new_object (h1 ++ OLoad start text :: h2 ++ [OParse input dt]) = Ok rs ->
  exists v pk before reply,
    MetaM.load_text fuel keq (last_lr true h1) order G (last_log false h1) start text = Ok (Some v, pk) /\ rs = before ++ [reply] /\
    match v with
    | LoadM.Rejected => reply = Parsed false [] None
    | LoadM.Accepted L => exists b reps r, reply = Parsed b reps (Some r) /\
        alone (LoadM.ld_g L) (fun _ => described u0 L pk (last_log false (h1 ++ h2)) h2) sig fuel (LoadM.ld_start L, input, dt) = Ok (b, reps, r)
    end.
Proof. intros. now apply history_summary with (border := border). Qed.
Print Assumptions C58_history.

(** A parse can be left out of any history, with loads, saved grammars, settings and
    callbacks before and after it, without any other reply changing - provided no
    load_blob is refused after it has read a start name (C58_refused_blob_refuted). *)
Theorem C58_parse_leaves_nothing : forall (V U : Type) fuel keq order border sig G (u0 : U) (h1 h2 : list (@op V U)) input dt rs,
  Forall (calm fuel border) (h1 ++ h2) ->
  replies fuel keq order border sig G u0 new_object (h1 ++ OParse input dt :: h2) = Ok rs ->
  exists r1 a r2, rs = r1 ++ a :: r2 /\ List.length r1 = List.length h1
    /\ replies fuel keq order border sig G u0 new_object (h1 ++ h2) = Ok (r1 ++ r2).
Proof. intros. eapply drop_parse; try eassumption. exact I. Qed.
Print Assumptions C58_parse_leaves_nothing.

(** A load makes the object like a new one with the same left recursion setting and logger:
    every later reply is the same. *)
Theorem C58_load_starts_afresh : forall (V U : Type) fuel keq order border sig G (u0 : U) (h1 : list (@op V U)) start text h2 rs,
  replies fuel keq order border sig G u0 new_object (h1 ++ OLoad start text :: h2) = Ok rs ->
  exists r1 r2, rs = r1 ++ r2 /\ List.length r1 = List.length h1
    /\ replies fuel keq order border sig G u0 new_object (OLeftRec (last_lr true h1) :: OLogger (last_log false h1) :: OLoad start text :: h2)
       = Ok (Done :: Done :: r2).
Proof. intros. now apply reload with (o := new_object). Qed.
Print Assumptions C58_load_starts_afresh.

(** After a refused load_grammar every parse returns false and reports nothing, until a
    grammar is loaded; the old grammar is gone. *)
Theorem C58_refused_load : forall (V U : Type) fuel keq order border sig G (u0 : U) (h1 : list (@op V U)) start text h2 r1 r2,
  replies fuel keq order border sig G u0 new_object (h1 ++ OLoad start text :: h2) = Ok (r1 ++ Answer false :: r2) ->
  List.length r1 = List.length h1 -> forallb (fun x => negb (makes_grammar x)) h2 = true ->
  r2 = map (fun x => match x with OParse _ _ => Parsed false [] None | _ => Done end) h2.
Proof. intros. eapply after_refused; eassumption. Qed.
Print Assumptions C58_refused_load.

(** A refused load_blob is different: it keeps the old grammar (the object still converts to
    true) but has already replaced the name of the start rule, so the next parse crashes.
    Here the blob is the magic number, the start name Z and nothing else. *)
Definition run_object (h : list (@op bytes unit)) : outcome (list (@reply bytes unit)) :=
  replies 400 PropLoad.no_keys (fun x => x) [] sig_of PropMeta.meta_g tt new_object h.
Definition says (h : list (@op bytes unit)) : option (list bool) :=
  match run_object h with
  | Ok l => Some (map (fun a => match a with Done => true | Answer b => b | Parsed b _ _ => b end) l)
  | _ => None
  end.
Definition cut_blob : bytes := BlobM.w32 BlobM.MAGIC ++ BlobM.wstr (bs "Z") ++ BlobM.w32 1.
Definition text_a : bytes := bs "S <- 'a' T*
T <- 'b' / 'c'
".
Theorem C58_refused_blob_refuted :
  (exists msg, BlobM.load_blob 400 400 [] (BlobM.w32 7) = Throw msg) /\ (exists msg, BlobM.load_blob 400 400 [] cut_blob = Throw msg) /\
  says [OLoad [] text_a; OBlob (BlobM.w32 7); OParse (bs "abc") tt] = Some [true; false; true] /\
  run_object [OLoad [] text_a; OBlob cut_blob; OParse (bs "abc") tt] = UB NullDeref.
Proof. split; [eexists; vm_compute; reflexivity|]. split; [eexists; vm_compute; reflexivity|]. split; vm_compute; reflexivity. Qed.
Print Assumptions C58_refused_blob_refuted.

(** A history with two loads, a refused load, packrat parsing switched on between parses, a
    logger and an action. *)
Definition size_action : bytes -> sv bytes -> unit -> option bytes -> option bytes * unit := fun _ vs u _ => (Some (bs "x"), u).
Definition history_a : list (@op bytes unit) :=
  [OLoad [] text_a; OParse (bs "ab") tt; OPackrat; OParse (bs "abx") tt; OLoad [] (bs "S <- X"); OParse (bs "ab") tt; OLogger true;
   OLoad (bs "T") text_a; OHook (bs "T") (fun k => {| hk_action := Some size_action; hk_pred := hk_pred k; hk_enter := hk_enter k; hk_leave := hk_leave k |});
   OParse (bs "ab") tt; OPackrat; OVerbose true; OParse (bs "bc") tt; ONoEoi; OParse (bs "bc") tt].
Example C58_meets :
  says history_a = Some [true; true; true; false; false; false; true; true; true; false; true; true; false; true; true]
  /\ (exists l reps r, run_object history_a = Ok (l ++ [Parsed true reps (Some r)]) /\ result_value r = Some (bs "x"))
  /\ Forall (calm 400 []) history_a
  /\ (exists p1 p2 h1 h2, history_a = h1 ++ OLoad p1 p2 :: h2 ++ [OParse (bs "bc") tt] /\ forallb (fun x => negb (makes_grammar x)) h2 = true)
  /\ (exists h1 h2, history_a = h1 ++ OLoad [] (bs "S <- X") :: OParse (bs "ab") tt :: OLogger true :: h2 /\ List.length h1 = 4).
Proof.
  split; [vm_compute; reflexivity|]. split.
  { eexists [_;_;_;_;_;_;_;_;_;_;_;_;_;_], _, _. split; [vm_compute; reflexivity|reflexivity]. }
  split; [repeat (apply Forall_cons; [exact I|]); apply Forall_nil|]. split.
  - exists (bs "T"), text_a, (firstn 7 history_a), (firstn 6 (skipn 8 history_a)). split; reflexivity.
  - exists (firstn 4 history_a), (skipn 7 history_a). split; reflexivity.
Qed.
