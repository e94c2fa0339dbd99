(** * Properties C04-C10: escapes, ranges, dictionary, positions, tags. *)
From Verif Require Import Base Utf8 Utf8Spec Escape EscapeSpec EscapeProofs
  RangeSpec RangeProofs TrieM TrieSpec TrieProofs LineInfo LineSpec LineProofs TagProofs.

(** C04.  A literal made of well-formed items, no numeric escape being followed
    by something that looks like one more digit, resolves to the concatenation
    of what the items denote.  [separated] is necessary: see the refutation. *)
Theorem C04_escapes_denote : forall l : list item,
  forallb wf_item l = true -> separated l = true ->
  resolve_escape_sequence (List.concat (map source l)) = Ok (List.concat (map denotes l)).
Proof. intros l Hw Hs. exact (resolves_fun _ _ (resolves_items l Hw Hs)). Qed.
Print Assumptions C04_escapes_denote.

(** What is missing in the full claim (drop [separated]) is false: [\x41]
    followed by the plain letter B is read as [\x41B]. *)
Theorem C04_escapes_denote_refuted : exists l : list item,
  forallb wf_item l = true
  /\ resolve_escape_sequence (List.concat (map source l)) <> Ok (List.concat (map denotes l)).
Proof.
  exists [Hex [x34; x31]; Plain x42]. split; [reflexivity|]. vm_compute. discriminate.
Qed.
Print Assumptions C04_escapes_denote_refuted.

(** A long digit run overflows a signed int. *)
Theorem C04_no_undefined_behaviour_refuted :
  exists s : bytes, resolve_escape_sequence s = UB IntOverflow.
Proof. exists (bs "\xFFFFFFFFF"). reflexivity. Qed.
Print Assumptions C04_no_undefined_behaviour_refuted.

Theorem C04_print_then_resolve : forall s : bytes,
  forallb (fun b => negb (beq b x5c)) s = true ->
  resolve_escape_sequence (escape_characters s) = Ok s.
Proof. intros s H. exact (resolves_fun _ _ (resolve_escape s H)). Qed.
Print Assumptions C04_print_then_resolve.

Theorem C04_resolving_terminates : forall s : bytes, resolve_escape_sequence s <> OutOfFuel.
Proof. intro s. exact (resolve_enough (List.length s) s (le_n _)). Qed.
Print Assumptions C04_resolving_terminates.

Example C04_meets :
  let l := [Plain x61; Simple x6e; Hex [x34; x31]; Plain x7a; Uni [x33; x30; x34; x32]; Simple x5c; Oct [x31; x30; x31]] in
  forallb wf_item l = true /\ separated l = true
  /\ List.concat (map source l) = bs "a\n\x41z\u3042\\\101"
  /\ List.concat (map denotes l) = [x61; x0a; x41; x7a; xe3; x81; x82; x5c; x41].
Proof. repeat split. Qed.

(** C05. *)
Theorem C05_complement_partitions : forall rs cp, sorted_ranges rs -> (cp <= 0x10FFFF)%N ->
  accepts (complement_character_ranges rs) cp <-> ~ accepts rs cp.
Proof. exact complement_spec. Qed.
Print Assumptions C05_complement_partitions.

Theorem C05_complement_in_unicode : forall rs cp, (0x10FFFF < cp)%N -> sorted_ranges rs ->
  ~ accepts (complement_character_ranges rs) cp.
Proof. exact complement_above. Qed.
Print Assumptions C05_complement_in_unicode.

(** Every predefined class, in particular those behind \d \w \s, meets the
    precondition. *)
Theorem C05_predefined_classes : forall name rs cp,
  predefined_character_class name = Some rs -> (cp <= 0x10FFFF)%N ->
  accepts (complement_character_ranges rs) cp <-> ~ accepts rs cp.
Proof. intros name rs cp H. exact (complement_spec rs cp (predefined_sorted name rs H)). Qed.
Print Assumptions C05_predefined_classes.

(** What each predefined class accepts, in terms of characters. *)
Local Open Scope N_scope.
From Coq Require Import Ascii.
Local Open Scope char_scope.
Definition between (a b : ascii) (cp : N) : Prop := N_of_ascii a <= cp <= N_of_ascii b.
Definition is_alpha cp := between "A" "Z" cp \/ between "a" "z" cp.
Definition is_alnum cp := is_alpha cp \/ between "0" "9" cp.
Definition is_graph cp := between "!" "~" cp.
Theorem C05_predefined_classes_accept : forall cp,
  let class name (p : Prop) := exists rs, predefined_character_class name = Some rs /\ (accepts rs cp <-> p) in
  class "digit"%string (between "0" "9" cp)
  /\ class "word"%string (is_alnum cp \/ cp = N_of_ascii "_")
  /\ class "space"%string (cp = 32 \/ 9 <= cp <= 13)
  /\ class "blank"%string (cp = 32 \/ cp = 9)
  /\ class "alpha"%string (is_alpha cp)
  /\ class "alnum"%string (is_alnum cp)
  /\ class "upper"%string (between "A" "Z" cp)
  /\ class "lower"%string (between "a" "z" cp)
  /\ class "xdigit"%string (between "0" "9" cp \/ between "A" "F" cp \/ between "a" "f" cp)
  /\ class "graph"%string (is_graph cp)
  /\ class "print"%string (is_graph cp \/ cp = 32)
  /\ class "punct"%string (is_graph cp /\ ~ is_alnum cp)
  /\ class "cntrl"%string (cp < 32 \/ cp = 127)
  /\ class "ascii"%string (cp < 128).
Proof.
  intros cp class. unfold class, is_graph, is_alnum, is_alpha, between.
  assert (Hc : forall lo hi rs, accepts ((lo, hi) :: rs) cp <-> lo <= cp <= hi \/ accepts rs cp).
  { intros lo hi rs. unfold accepts. split.
    - intros (l & h & [H|H] & H1 & H2); [inversion H; subst; left; lia|right; eauto].
    - intros [H|(l & h & H & H1 & H2)]; [exists lo, hi; cbn; auto with zarith|exists l, h; cbn; auto]. }
  assert (Hn : accepts [] cp <-> False) by (unfold accepts; split; [intros (? & ? & [] & _)|intros []]).
  repeat match goal with |- _ /\ _ => split end.
  all: eexists; split; [reflexivity|]; rewrite ?Hc, ?Hn; cbn [N_of_ascii N_of_digits]; lia.
Qed.
Print Assumptions C05_predefined_classes_accept.
Local Close Scope char_scope. Local Close Scope N_scope.

Example C05_meets : (exists rs, predefined_character_class "word" = Some rs)
  /\ (exists rs, predefined_character_class "digit" = Some rs)
  /\ (exists rs, predefined_character_class "space" = Some rs).
Proof. repeat split; eexists; reflexivity. Qed.

(** C06.  [fst] of a trie match is the consumed length, 0 = no match. *)
Theorem C06_dictionary_longest : forall items ic text,
  let len := fst (trie_match (make_trie items ic) text) in
  (len = 0 /\ (forall w, In w items -> ~ word_matches ic w text))
  \/ (1 <= len /\ longest ic items text len).
Proof.
  intros items ic text.
  destruct (trie_match_best items ic text) as [(A & _ & B)|(A & B & _)]; [left|right]; split; assumption.
Qed.
Print Assumptions C06_dictionary_longest.

Example C06_meets : fst (trie_match (make_trie [bs "a"; bs "abc"; bs "ab"] false) (bs "abcd")) = 3
  /\ fst (trie_match (make_trie [bs "a"; bs "ABC"; bs "ab"] true) (bs "abCd")) = 3
  /\ fst (trie_match (make_trie [bs "a"; bs "abc"; bs "ab"] false) (bs "bcd")) = 0.
Proof. repeat split. Qed.

(** C07.  The index reported is that of the first listed word that begins with the text
    matched. *)
Theorem C07_first_word_with_that_beginning : forall items ic text,
  let r := trie_match (make_trie items ic) text in
  1 <= fst r ->
  exists j w, snd r = Some j /\ nth_error items j = Some w
    /\ prefix (firstn (fst r) (same_text ic text)) (same_text ic w)
    /\ forall i v, i < j -> nth_error items i = Some v -> ~ prefix (firstn (fst r) (same_text ic text)) (same_text ic v).
Proof. exact trie_match_first. Qed.
Print Assumptions C07_first_word_with_that_beginning.
(** Hence it is the index of the word matched when no listed word is a prefix of an
    earlier one. *)
Theorem C07_dictionary_choice : forall items ic text,
  (forall m n a b, m < n -> nth_error items m = Some a -> nth_error items n = Some b ->
     ~ prefix (same_text ic b) (same_text ic a)) ->
  1 <= fst (trie_match (make_trie items ic) text) ->
  exists j w, snd (trie_match (make_trie items ic) text) = Some j
    /\ nth_error items j = Some w /\ word_matches ic w text
    /\ List.length w = fst (trie_match (make_trie items ic) text).
Proof. exact trie_match_choice. Qed.
Print Assumptions C07_dictionary_choice.

(** In general it does not: ['abc' | 'ab'] on "abx" matches "ab" and reports 0. *)
Theorem C07_dictionary_choice_refuted : exists items text j w,
  trie_match (make_trie items false) text = (2, Some j)
  /\ nth_error items j = Some w /\ ~ word_matches false w text.
Proof.
  exists [bs "abc"; bs "ab"], (bs "abx"), 0, (bs "abc").
  split; [reflexivity|]. split; [reflexivity|]. intros [_ [rest H]]. discriminate H.
Qed.
Print Assumptions C07_dictionary_choice_refuted.

Example C07_meets :
  let items := [bs "a"; bs "ab"; bs "b"] in
  (forall m n a b, m < n -> nth_error items m = Some a -> nth_error items n = Some b ->
     ~ prefix (same_text false b) (same_text false a))
  /\ trie_match (make_trie items false) (bs "abc") = (2, Some 1).
Proof.
  split; [|reflexivity]. intros [|[|[|m]]] [|[|[|n]]] a b Hmn Ha Hb; try lia;
    cbn in Ha, Hb; try discriminate; try (destruct m; discriminate); try (destruct n; discriminate);
    injection Ha as <-; injection Hb as <-; intros [r H]; discriminate.
Qed.

(** C08.  Error reports count code points, semantic values and AST nodes bytes. *)
Theorem C08_line_info : forall s pos cur, pos <= List.length s -> current_line s pos cur ->
  exists k, codepoint_count cur (List.length cur) = Ok k
    /\ line_info s pos = Ok (line_no s pos, 1 + k).
Proof. exact line_info_at. Qed.
Print Assumptions C08_line_info.

Theorem C08_line_info_valid_text : forall s pos cur cps, pos <= List.length s ->
  current_line s pos cur -> utf8_of cps cur ->
  line_info s pos = Ok (line_no s pos, 1 + List.length cps).
Proof. exact line_info_valid. Qed.
Print Assumptions C08_line_info_valid_text.

Theorem C08_current_line_exists_unique : forall s pos, pos <= List.length s ->
  exists cur, current_line s pos cur /\ (forall c, current_line s pos c -> c = cur).
Proof. exact current_line_exists. Qed.
Print Assumptions C08_current_line_exists_unique.

(** C08, C09: any history of queries on one parse answers each with the line
    and byte column of its position. *)
Theorem C09_line_info_history : forall s ps,
  Forall (fun p => p <= List.length s) ps ->
  exists rs, queries s li_init ps = Ok rs /\
    Forall2 (fun p r => exists cur, current_line s p cur /\ r = (line_no s p, 1 + List.length cur)) ps rs.
Proof. intros s ps. exact (queries_spec s ps li_init I). Qed.
Print Assumptions C09_line_info_history.

Example C09_meets : queries (bs "ab
c
d") li_init [6; 0; 4; 3; 2; 6] = Ok [(3, 2); (1, 1); (2, 2); (2, 1); (1, 3); (3, 2)].
Proof. reflexivity. Qed.

(** C10.  The tag is a function of the name ([str2tag]); names of the same length that
    differ in one byte never share a tag. *)
Theorem C10_one_byte_apart : forall (s t : bytes) (c d : byte), c <> d -> str2tag (s ++ c :: t) <> str2tag (s ++ d :: t).
Proof. exact tag_one_byte. Qed.
Print Assumptions C10_one_byte_apart.
Example C10_meets : str2tag (bs "expr1") <> str2tag (bs "expr2") /\ str2tag (bs "term") <> str2tag (bs "tern").
Proof.
  split; [apply (C10_one_byte_apart (bs "expr") []); discriminate|apply (C10_one_byte_apart (bs "ter") []); discriminate].
Qed.
(** Distinctness fails in general. *)
Theorem C10_tags_distinct_refuted : exists a b : bytes, a <> b /\ str2tag a = str2tag b.
Proof. exists (bs "aB"), (bs "ba"). split; [discriminate|reflexivity]. Qed.
Print Assumptions C10_tags_distinct_refuted.
