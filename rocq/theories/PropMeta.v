(** * C48, C49: reading a grammar text. *)
From Coq Require Import Permutation.
From Verif Require Import Base BaseLemmas Utf8 Utf8Spec Escape TrieM LineInfo Ope Ctx ErrLog Engine EngineLemmas Top Scope FirstSetM FirstSpec PackratFilter PrecSpec PrecM
  LoadM LoadSpec LoadRefs LoadLoop MetaM MetaSource MetaTerm Samples PropLoad.

(** [g] is the library's own grammar of grammar texts with the annotations that
    SetupFirstSets computes for it, whatever the order of its hash map. *)

(** What a text is read as: rules with distinct names, each with a body built from the
    operators of the notation, nothing linked, nothing flagged; the built-in %recover
    first; parameters only on macros; the start rule is the first rule whose name does
    not begin with %. *)
Theorem C48_text_gives_rules fuel g log text d : meta_annotated g -> read_text fuel g log text = Ok (Rules d) ->
  source_grammar (d_rules d)
  /\ (exists rest, d_rules d = recover_rule :: rest)
  /\ (forall r, In r (d_rules d) -> r_is_macro r = false -> r_params r = [])
  /\ d_start d = first_plain (d_rules d).
Proof. intros Hg H. destruct (read_source fuel g log text d Hg H). auto. Qed.
Print Assumptions C48_text_gives_rules.

(** Hence what C31 says holds of every text: if a parser is obtained, every reference in
    it is resolved. *)
Theorem C48_loaded_text_resolved fuel keq lrec order g log start text l packrat : meta_annotated g ->
  (forall x, Permutation x (order x)) ->
  load_text fuel keq lrec order g log start text = Ok (Some (Accepted l), packrat) ->
  exists d, read_text fuel g log text = Ok (Rules d)
  /\ source_grammar (order (d_rules d)) /\ ~ dangling (order (d_rules d))
  /\ forall r b n rl ia mac args, In r (ld_g l) -> r_body r = Some b -> inside (r_params r) b (Ref n rl ia mac args) ->
       LoadSpec.resolved (ld_g l) (r_params r) n rl ia mac args.
Proof.
  intros Hg Hord H. unfold load_text in H. destruct (read_text fuel g log text) as [x| | |] eqn:Hr; try discriminate H. cbn [bind] in H.
  destruct x as [| |d]; try discriminate H. exists d. split; [reflexivity|].
  assert (Hs : source_grammar (order (d_rules d))).
  { pose proof (sd_source _ (read_source fuel g log text d Hg Hr)) as [H1 H2 H3]. pose proof (Hord (d_rules d)) as Hp. constructor.
    - eapply Permutation_NoDup; [apply Permutation_map; exact Hp|exact H1].
    - intros r Hin. apply H2. eapply Permutation_in; [apply Permutation_sym; exact Hp|exact Hin].
    - intros r Hin. apply H3. eapply Permutation_in; [apply Permutation_sym; exact Hp|exact Hin]. }
  split; [exact Hs|]. cbv zeta in H. match type of H with (if ?b then _ else _) = _ => destruct b; [discriminate H|] end.
  injection H as H _. exact (C31_references_resolve _ _ _ _ _ _ _ Hs H).
Qed.
Print Assumptions C48_loaded_text_resolved.

(** Reading ends on every UTF-8 text. *)
Theorem C49_reading_ends g log text : meta_annotated g -> valid_utf8 text ->
  exists r F, forall fuel, F <= fuel -> read_text fuel g log text = Ok r.
Proof. exact (read_ends g log text). Qed.
Print Assumptions C49_reading_ends.

(** A text of two rules, a macro and a comment. *)
Definition meta_g : grammar := match setup_first_sets 200 200 (List.seq 0 (List.length meta_grammar)) meta_grammar with Ok g => g | _ => [] end.
Definition text1 : bytes := bs "# sums
S <- M(T, '+')   # a list
~T <- [0-9]+ / '(' S ')'
M(x, y) <- x (y x)*
".
Lemma meta_g_ok : meta_annotated meta_g.
Proof. exists 200, 200, (List.seq 0 (List.length meta_grammar)). vm_compute. reflexivity. Qed.
Example C48_meets : exists d, read_text 400 meta_g true text1 = Ok (Rules d)
  /\ map r_name (d_rules d) = [bs "%recover"; bs "S"; bs "T"; bs "M"] /\ d_start d = bs "S"
  /\ option_map r_body (nth_error (d_rules d) 2)
     = Some (Some (Cho false [] [Rep (Cls [(48, 57)%N] false false) 1 None None;
                                 Seq None [Lit (bs "(") false; Ref (bs "S") None 0 false []; Lit (bs ")") false]])).
Proof. eexists. split; [vm_compute; reflexivity|]. repeat split; reflexivity. Qed.
Example C48_meets_load : exists l, load_text 400 no_keys true (fun x => x) meta_g true [] text1 = Ok (Some (Accepted l), true).
Proof. eexists. vm_compute. reflexivity. Qed.
Example C49_meets : valid_utf8 text1.
Proof. apply ascii_text_valid. vm_compute. reflexivity. Qed.
