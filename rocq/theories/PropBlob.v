(** * C36, C37: saved grammars. *)
From Verif Require Import Base BaseLemmas Escape TrieM TrieSpec LineInfo Ope Ctx ErrLog Engine EngineLemmas Top Scope GrammarCond FirstSetM FirstSetup Samples BlobM BlobSpec BlobProofs BlobSafe.

Lemma oapp_ok a b w : oapp a b = Ok w -> exists x y, a = Ok x /\ b = Ok y /\ w = x ++ y.
Proof. unfold oapp. destruct a as [x| | |]; try discriminate. destruct b as [y| | |]; try discriminate. cbn. intros H. inversion H. eauto. Qed.
Lemma write_list_inv l : Forall (fun o => forall w, write_ope o = Ok w -> savable o = true) l -> forall w, write_list l = Ok w -> forallb savable l = true.
Proof.
  induction 1 as [|x l Hx _ IH]; intros w H; [reflexivity|]. cbn [write_list] in H. apply oapp_ok in H as (a & b & Ha & Hb & _). cbn [forallb]. rewrite (Hx _ Ha), (IH _ Hb). reflexivity.
Qed.
Lemma write_savable : forall o w, write_ope o = Ok w -> savable o = true.
Proof.
  induction o as [kg l IH|fl fs l IH|e mn mx sp IH|e IH|e IH|t|s ic|rs neg ic|cp| |e IH|n e IH|e IH|e IH|id|r|r|n rl ia m args IH|e IH|n|a b i r IHa IHb|e IH| | ] using ope_ind';
    intros w H; try discriminate H; try reflexivity;
    try (cbn [write_ope] in H; apply oapp_ok in H as (? & ? & _ & H & _); exact (IH _ H)).
  - change (write_ope (Seq kg l)) with (oapp (Ok (w8 0 ++ wlen l)) (write_list l)) in H. apply oapp_ok in H as (? & ? & _ & H & _). exact (write_list_inv l IH _ H).
  - change (write_ope (Cho fl fs l)) with (oapp (Ok (w8 1 ++ wbool fl ++ wlen l)) (write_list l)) in H. apply oapp_ok in H as (? & ? & _ & H & _). exact (write_list_inv l IH _ H).
  - change (write_ope (Ref n rl ia m args)) with (oapp (Ok (w8 15 ++ wbool m ++ wstr n ++ wlen args)) (write_list args)) in H. apply oapp_ok in H as (? & ? & _ & H & _). exact (write_list_inv args IH _ H).
  - cbn [write_ope] in H. apply oapp_ok in H as (? & ? & _ & H & _). apply oapp_ok in H as (? & ? & Ha & H & _). apply oapp_ok in H as (? & ? & Hb & _ & _).
    cbn [savable]. rewrite (IHa _ Ha), (IHb _ Hb). reflexivity.
Qed.
Lemma write_defs_inv l : forall w, write_defs l = Ok w -> forall d o, In d l -> r_body (d_rule d) = Some o -> savable o = true.
Proof.
  induction l as [|x l IH]; intros w H d o Hd Hb; [contradiction|]; cbn [write_defs] in H; apply oapp_ok in H as (? & ? & H1 & H2 & _); destruct Hd as [->|Hd].
  - unfold write_def in H1. apply oapp_ok in H1 as (? & ? & _ & H1 & _). rewrite Hb in H1. exact (write_savable _ _ H1).
  - exact (IH _ H2 d o Hd Hb).
Qed.
Lemma serialize_saves L b : serialize L = Ok b -> saves L.
Proof.
  unfold serialize. intros H d o Hd Hb. apply oapp_ok in H as (? & ? & _ & H & _). eapply write_defs_inv; [exact H| |exact Hb]. now apply sort_perm.
Qed.
Lemma round_trip : forall k n order L b rest, ready k n order L -> serialize L = Ok b -> load_blob k n order (b ++ rest) = Ok L.
Proof.
  intros k n order L b rest HL Hb. pose proof (serialize_saves _ _ Hb) as Hs. rewrite (serialize_ok _ _ _ _ HL Hs) in Hb. inversion Hb. now apply load_serialized.
Qed.
Lemma throws_not : forall o, exists r, write_ope o = r /\ match r with Ok _ | Throw _ => True | _ => False end.
Proof.
  intros o. eexists. split; [reflexivity|].
  induction o as [kg l IH|fl fs l IH|e mn mx sp IH|e IH|e IH|t|s ic|rs neg ic|cp| |e IH|n e IH|e IH|e IH|id|r|r|n rl ia m args IH|e IH|n|a b i r IHa IHb|e IH| | ] using ope_ind';
    try exact I; try (cbn [write_ope]; unfold oapp; destruct (write_ope e); cbn [bind]; auto; fail);
    try (match goal with H : Forall _ ?l |- _ => assert (HL : match write_list l with Ok _ | Throw _ => True | _ => False end);
    [ induction H as [|x l' Hx _ IHl]; cbn [write_list]; auto; unfold oapp; destruct (write_ope x); cbn [bind]; auto; destruct (write_list l'); cbn [bind]; auto | ] end).
  - change (write_ope (Seq kg l)) with (oapp (Ok (w8 0 ++ wlen l)) (write_list l)). unfold oapp. destruct (write_list l); cbn [bind]; auto.
  - change (write_ope (Cho fl fs l)) with (oapp (Ok (w8 1 ++ wbool fl ++ wlen l)) (write_list l)). unfold oapp. destruct (write_list l); cbn [bind]; auto.
  - change (write_ope (Ref n rl ia m args)) with (oapp (Ok (w8 15 ++ wbool m ++ wstr n ++ wlen args)) (write_list args)). unfold oapp. destruct (write_list args); cbn [bind]; auto.
  - cbn [write_ope]. unfold oapp. destruct (write_ope a); cbn [bind]; auto. destruct (write_ope b); cbn [bind]; auto.
Qed.
Lemma serialize_dec : forall L, (exists b, serialize L = Ok b) \/ exists msg, serialize L = Throw msg.
Proof.
  intros L. unfold serialize. assert (H : forall l, match write_defs l with Ok _ | Throw _ => True | _ => False end).
  { induction l as [|d l IH]; [exact I|]. cbn [write_defs]. unfold write_def, oapp.
    destruct (throws_not (match r_body (d_rule d) with Some o => o | None => Nul end)) as (r & -> & Hr).
    destruct r; cbn [bind]; auto. destruct (write_defs l); cbn [bind]; auto. }
  specialize (H (sort_by (fun d => r_name (d_rule d)) (l_defs L))). unfold oapp. destruct (write_defs _); cbn [bind]; try contradiction; eauto.
Qed.
Lemma serialize_iff : forall k n order L, ready k n order L ->
  ((exists b, serialize L = Ok b) <-> (forall d o, In d (l_defs L) -> r_body (d_rule d) = Some o -> savable o = true))
  /\ ((exists b, serialize L = Ok b) \/ exists msg, serialize L = Throw msg).
Proof.
  intros k n order L HL. split; [|apply serialize_dec]. split.
  - intros [b Hb]. exact (serialize_saves _ _ Hb).
  - intros Hs. eexists. exact (serialize_ok _ _ _ _ HL Hs).
Qed.

(** A grammar as load_grammar leaves it ([ready]), saved and loaded again, is the same
    grammar: rules, operators, links, first sets, whitespace and word rules, start rule and
    flags.  Bytes after the blob are ignored.  [order] is the iteration order of the hash
    map when first sets are computed. *)
Theorem C36_round_trip : forall k n order L b rest, ready k n order L -> serialize L = Ok b -> load_blob k n order (b ++ rest) = Ok L.
Proof. exact round_trip. Qed.
Print Assumptions C36_round_trip.
(** Saving fails, by an exception, exactly if there is a capture or a custom parser (or a
    rule embedded through the combinator interface). *)
Theorem C36_serializable : forall k n order L, ready k n order L ->
  ((exists b, serialize L = Ok b) <-> (forall d o, In d (l_defs L) -> r_body (d_rule d) = Some o -> savable o = true))
  /\ ((exists b, serialize L = Ok b) \/ exists msg, serialize L = Throw msg).
Proof. exact serialize_iff. Qed.
Print Assumptions C36_serializable.

(** The parser object made of a loaded grammar. *)
Definition parser_of (L : loaded) : pobj bytes unit :=
  let start := match index_of (l_start L) (def_names (l_defs L)) with Some i => i | None => 0 end in
  {| p_g := l_grammar L; p_start := start; p_ws := l_ws L; p_word := l_word L; p_packrat := false; p_slot := fun _ => None;
     p_cached := 0; p_eoi := match nth_error (l_defs L) start with Some d => d_eoi d | None => true end;
     p_tracer := false; p_verbose := false; p_log := false; p_u0 := tt;
     p_action := fun _ => None; p_pred := fun _ => None; p_enter := fun _ => None; p_leave := fun _ => None;
     p_user := fun _ _ _ vs u => (None, vs, u) |}.
Definition mk_def (name : string) (body : ope) : defn :=
  {| d_rule := {| r_name := bs name; r_body := Some body; r_ignore := false; r_is_macro := false; r_params := [];
       r_disable_action := false; r_lr := false; r_can_be_empty := false; r_macro_ref := true;
       r_error_message := []; r_no_ast_opt := false; r_no_whitespace := false; r_ast_name := [] |}; d_eoi := true; d_packrat := false |}.
Definition accepts (L : loaded) (s : string) : option bool :=
  match def_parse 60 (parser_of L) (bs s) tt with Ok r => Some (rs_ret r) | _ => None end.
(** S <- 'foobar' | 'foo' (a dictionary). *)
Definition foo_L : loaded := {| l_defs := [mk_def "S" (Dic (make_trie [bs "foobar"; bs "foo"] false))]; l_start := bs "S"; l_ws := None; l_word := None |}.
(** Without the condition on dictionaries the loaded grammar may parse differently. *)
Theorem C36_dictionary_refuted : exists b L', serialize foo_L = Ok b /\ load_blob 9 9 [0] b = Ok L'
  /\ accepts foo_L "foo" = Some true /\ accepts L' "foo" = Some false.
Proof. eexists _, _. split; [vm_compute; reflexivity|]. split; [vm_compute; reflexivity|]. split; vm_compute; reflexivity. Qed.
Print Assumptions C36_dictionary_refuted.

(** A case: whitespace, a choice with first sets, a dictionary, a reference and a macro. *)
Definition meets_bare : list defn :=
  [ mk_def "%whitespace" (many (lit " "));
    mk_def "A" (alts [seqs [lit "a"; lit "b"]; lit "c"; Dic (make_trie [bs "foo"; bs "foobar"] true)]);
    {| d_rule := {| r_name := bs "M"; r_body := Some (seqs [Ref (bs "x") None 0 false []; lit ";"]); r_ignore := false; r_is_macro := true; r_params := [bs "x"];
       r_disable_action := false; r_lr := false; r_can_be_empty := false; r_macro_ref := true;
       r_error_message := bs "no"; r_no_ast_opt := true; r_no_whitespace := false; r_ast_name := [] |}; d_eoi := true; d_packrat := false |};
    mk_def "S" (many (alts [Ref (bs "M") (Some 2) 0 true [Ref (bs "A") (Some 1) 0 false []]; Cls [(48, 57)]%N false false])) ].
Definition meets_defs : list defn :=
  match setup_first_sets 9 9 [0; 1; 2; 3] (map d_rule meets_bare) with Ok g => with_rules meets_bare g | _ => [] end.
Definition meets_L : loaded :=
  {| l_defs := meets_defs; l_start := bs "S"; l_ws := option_map Wsp (core_of (bs "%whitespace") meets_defs); l_word := core_of (bs "%word") meets_defs |}.
Example C36_meets : ready 9 9 [0; 1; 2; 3] meets_L /\ exists b, serialize meets_L = Ok b.
Proof.
  split; [|eexists; vm_compute; reflexivity]. constructor.
  - vm_compute. repeat (constructor; try reflexivity).
  - split; vm_compute; reflexivity.
  - intros i d Hd.
    assert (Hdic : plain_dic (make_trie [bs "foo"; bs "foobar"] true)).
    { exists true, [bs "foo"; bs "foobar"]. split; [reflexivity|]. split; [|split; [reflexivity|repeat constructor]].
      intros m n a b Hmn Ha Hb. destruct m as [|[|m]], n as [|[|n]]; try lia; cbn in Ha, Hb; try discriminate Hb; try (destruct n; discriminate Hb).
      inversion Ha. inversion Hb. subst. intros [r Hr]. discriminate Hr. }
    destruct i as [|[|[|[|i]]]]; vm_compute in Hd; try (destruct i; discriminate Hd); inversion Hd; subst; clear Hd; unfold def_ok; cbn [d_rule r_name r_params r_ast_name r_error_message r_macro_ref r_body].
    all: do 2 (split; [vm_compute; reflexivity|]).
    all: split; [repeat constructor; fail|].
    all: do 2 (split; [vm_compute; reflexivity|]).
    all: split; [reflexivity|].
    all: eexists; split; [reflexivity|]; split; [|split; [|left; reflexivity]].
    all: cbn [fits resolved conj_all map fold_right]; repeat split; try reflexivity; try exact Hdic; try (repeat constructor; fail).
  - vm_compute. auto.
  - vm_compute. reflexivity.
  - reflexivity.
  - reflexivity.
Qed.

(** ** C37: arbitrary bytes *)
Lemma load_steps : forall b, match read_blob b with
  | Ok ((_, ds), b') => (exists pre, b = pre ++ b')
      /\ match link_defs (def_names ds) 0 ds with Ok _ => True | UB f => f = NullDeref | _ => False end
  | Throw _ => True
  | UB f => f = OutOfBounds /\ overlong b
  | OutOfFuel => False
  end.
Proof.
  intros b. pose proof (read_blob_total b) as H. destruct (read_blob b) as [[[st ds] b']| | |]; auto. split; [exact H|apply link_defs_ub].
Qed.
Lemma truncated_blob : forall k n order L b, ready k n order L -> serialize L = Ok b ->
  forall p s, b = p ++ s -> s <> [] -> forall k' n' order' L', load_blob k' n' order' p <> Ok L'.
Proof.
  intros k n order L b HL Hb p s Hp Hs k' n' order' L'. pose proof (serialize_saves _ _ Hb) as Hsv. rewrite (serialize_ok _ _ _ _ HL Hsv) in Hb. inversion Hb.
  eapply truncated; [exact HL|exact Hsv| |exact Hs]. congruence.
Qed.
(** Whatever the bytes, reading ends: it throws (so that load_blob fails cleanly), or reads
    out of bounds, and that only if the bytes contain a length followed by fewer bytes than
    it says; or it gives rules, which it then links, unless it meets a null operator. *)
Theorem C37_read : forall b, match read_blob b with
  | Ok ((_, ds), b') => (exists pre, b = pre ++ b')
      /\ match link_defs (def_names ds) 0 ds with Ok _ => True | UB f => f = NullDeref | _ => False end
  | Throw _ => True
  | UB f => f = OutOfBounds /\ overlong b
  | OutOfFuel => False
  end.
Proof. exact load_steps. Qed.
Print Assumptions C37_read.
(** A truncated blob never loads. *)
Theorem C37_truncated : forall k n order L b, ready k n order L -> serialize L = Ok b ->
  forall p s, b = p ++ s -> s <> [] -> forall k' n' order' L', load_blob k' n' order' p <> Ok L'.
Proof. exact truncated_blob. Qed.
Print Assumptions C37_truncated.
(** But it may be read beyond its end: here the start name of a blob cut after 6 bytes of 9. *)
Theorem C37_out_of_bounds_refuted : exists L b p, serialize L = Ok b /\ (exists s, b = p ++ s)
  /\ forall k n order, load_blob k n order p = UB OutOfBounds.
Proof.
  exists foo_L. eexists. exists (w32 MAGIC ++ w32 1). split; [vm_compute; reflexivity|]. split; [eexists; vm_compute; reflexivity|]. intros. vm_compute. reflexivity.
Qed.
Print Assumptions C37_out_of_bounds_refuted.
(** A null operator crashes the linking. *)
Definition null_blob : bytes := w32 MAGIC ++ wstr (bs "S") ++ w32 1 ++ wstr (bs "S") ++ w8 8 ++ w8 0 ++ w32 0 ++ wstr [] ++ wstr [] ++ w8 20.
Theorem C37_null_refuted : forall k n order, load_blob k n order null_blob = UB NullDeref.
Proof. intros. vm_compute. reflexivity. Qed.
Print Assumptions C37_null_refuted.
(** A blob that loads may have a reference to no rule: parsing crashes. *)
Definition dangling_blob : bytes :=
  w32 MAGIC ++ wstr (bs "S") ++ w32 1 ++ wstr (bs "S") ++ w8 8 ++ w8 0 ++ w32 0 ++ wstr [] ++ wstr [] ++ w8 15 ++ w8 0 ++ wstr (bs "X") ++ w32 0.
Theorem C37_well_formed_refuted : exists L, load_blob 9 9 [0] dangling_blob = Ok L /\ exists f, def_parse 60 (parser_of L) (bs "a") tt = UB f.
Proof. eexists; split; [vm_compute; reflexivity|]. eexists. vm_compute. reflexivity. Qed.
Print Assumptions C37_well_formed_refuted.
(** A case for C37_truncated: the first 40 bytes of the blob of C36_meets. *)
Example C37_meets : exists b, ready 9 9 [0; 1; 2; 3] meets_L /\ serialize meets_L = Ok b /\ b = firstn 40 b ++ skipn 40 b /\ skipn 40 b <> [].
Proof.
  assert (E : exists b, serialize meets_L = Ok b /\ skipn 40 b <> []) by (eexists; split; [vm_compute; reflexivity|vm_compute; discriminate]).
  destruct E as (b & Hb & Hn). exists b. split; [apply C36_meets|]. split; [assumption|]. split; [symmetry; apply firstn_skipn|assumption].
Qed.
