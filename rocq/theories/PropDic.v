(** * Dictionaries in the textbook reading (C12). *)
From Verif Require Import Base BaseLemmas Utf8 Utf8Spec Escape TrieM TrieSpec TrieProofs LineInfo Ope Ctx ErrLog Engine EngineLemmas Top
  RefSem Refine TopRef PegSpec PegFacts DicDen PegDen PegWord PegRef GrammarCond PegEngine Samples PropPeg.

(** A dictionary 'a' | 'bc' | ... denotes a prioritized choice of literals
    ([dic_exp], DicDen.v) over exactly its words, which matches the longest word that
    fits and fails when none does. *)
Theorem C12_dictionary_is_a_choice_partial :
  forall (NT : Type) (G : NT -> pexp NT) (items : list bytes) (ic : bool) (s : bytes) (r : option bytes),
  (exists words, dic_exp (NT := NT) (make_trie items ic) = PAlts (map (PLit ic) words)
     /\ (forall w, In w words -> exists item, In item items /\ item <> [] /\ same_text ic w = same_text ic item)
     /\ (forall item, In item items -> item <> [] -> In (same_text ic item) words))
  /\ (peg G (dic_exp (make_trie items ic)) s r <->
      match r with
      | Some t => exists len, longest ic items s len /\ t = skipn len s
      | None => forall w, In w items -> ~ word_matches ic w s
      end).
Proof.
  intros NT G items ic s r. split.
  - exists (dic_words (make_trie items ic)). split.
    + unfold dic_exp. do 2 f_equal. f_equal. unfold make_trie. now destruct (trie_items ic items 0 [] 0).
    + apply dic_words_made.
  - pose proof (dic_total G (make_trie items ic) s) as T. pose proof (trie_match_best items ic s) as B. cbv zeta in B.
    assert (L : forall n m, longest ic items s n -> longest ic items s m -> n = m).
    { intros n m [(w & A1 & A2 & <-) A3] [(w' & B1 & B2 & <-) B3]. apply Nat.le_antisymm; auto. }
    set (i := fst (trie_match (make_trie items ic) s)) in *. split.
    + intros H. apply dic_result in H. fold i in H. subst r. destruct B as [(E & _ & B)|(H1 & B & _)].
      * rewrite E. cbn. exact B.
      * destruct i as [|n]; [lia|]. cbn. exists (S n). auto.
    + intros H. enough (E : r = if i =? 0 then None else Some (skipn i s)) by (rewrite E; exact T).
      destruct B as [(E & _ & B)|(H1 & B & _)].
      * rewrite E. cbn. destruct r as [t|]; [|reflexivity]. destruct H as (len & [(w & A1 & A2 & _) _] & _). destruct (B w A1 A2).
      * destruct r as [t|].
        -- destruct H as (len & A1 & ->). rewrite (L _ _ A1 B). destruct i; [lia|reflexivity].
        -- destruct B as [(w & A1 & A2 & _) _]. destruct (H w A1 A2).
Qed.
Print Assumptions C12_dictionary_is_a_choice_partial.

(** *** A grammar with a dictionary:
      S <- 'for' | 'foreach' | 'fo'    %whitespace <- [ ]*
    The longest word is taken, and there is no second try. *)
Definition d_for : ope := Dic (make_trie [bs "for"; bs "foreach"; bs "fo"] false).
Definition P_for : pobj bytes unit := sample [plain "S" (seqs [d_for; lit "x"])] (Some w_sum) None true false.
Definition R_for (n : nt) : Prop :=
  n = NRule 0 m_top \/ n = NSkip m_top \/ n = NDic (make_trie [bs "for"; bs "foreach"; bs "fo"] false).
Lemma for_formed : well_formed (peg_grammar P_for) R_for.
Proof.
  set (G := peg_grammar P_for). unfold R_for. set (t := make_trie [bs "for"; bs "foreach"; bs "fo"] false).
  assert (HV : forall s, In s [bs "x"; bs "for"; bs "foreach"; bs "fo"] -> valid_utf8 s).
  { intros s Hs. exists (map bN s). destruct Hs as [<- | [<- | [<- | [<- | []]]]]; (split; [cbn; repeat (constructor; [left; lia|]); constructor|reflexivity]). }
  assert (HD : dic_words t = [bs "foreach"; bs "for"; bs "fo"]) by (vm_compute; reflexivity).
  assert (HE : G (NDic t) = PAlts (map (PLit false) [bs "foreach"; bs "for"; bs "fo"])) by (change (G (NDic t)) with (dic_exp (NT := nt) t); unfold dic_exp; rewrite HD; reflexivity).
  assert (N2 : Acc (fun n' n => left_call G (G n) n') (NSkip m_top)).
  { constructor. intros y Hy. exfalso. cbn in Hy. tauto. }
  assert (N1 : Acc (fun n' n => left_call G (G n) n') (NDic t)).
  { constructor. intros y Hy. exfalso. rewrite HE in Hy. cbn in Hy. tauto. }
  assert (N0 : Acc (fun n' n => left_call G (G n) n') (NRule 0 m_top)).
  { constructor. intros y Hy. cbn in Hy.
    destruct Hy as [[<- | [_ <-]]|[_ [[[]|[_ <-]]|[_ []]]]]; assumption. }
  intros n [-> | [-> | ->]]; (split; [|assumption]).
  - cbn. unfold R_for. repeat split; auto. apply HV. now left.
  - cbn. split; [exact I|]. split; [apply chr_consumes|exact I].
  - rewrite HE. cbn. assert (HF := fun s H => HV s (or_intror H)). repeat split; apply HF; cbn; tauto.
Qed.
Example C12_dictionary_meets :
  core_parser (fun _ => m_top) [m_top] P_for /\ bare_parser P_for /\ p_word P_for = None /\ (forall q, p_pred P_for q = None)
  /\ well_formed (peg_grammar P_for) R_for /\ R_for (NSkip m_top) /\ R_for (NRule (p_start P_for) m_top)
  /\ longest false [bs "for"; bs "foreach"; bs "fo"] (bs "foreach x") 7
  /\ (exists reps res, parser_parse 40 P_for (bs "foreach x") tt = Ok (true, reps, res) /\ rs_len res = 9)
  /\ (exists reps res, parser_parse 40 P_for (bs "form x") tt = Ok (false, reps, res)).
Proof.
  split.
  { constructor; try reflexivity; [|discriminate]. split; [reflexivity|]. eexists. split; reflexivity. }
  split; [split; [reflexivity|]; split; (reflexivity || exact I)|]. split; [reflexivity|]. split; [reflexivity|].
  split; [exact for_formed|]. unfold R_for. split; [auto|]. split; [auto|]. split.
  { split; [exists (bs "foreach")|].
    - split; [cbn; auto|]. split; [|reflexivity]. split; [discriminate|]. exists (bs " x"). reflexivity.
    - intros w [<- | [<- | [<- | []]]] _; cbn; lia. }
  split; [|eexists _, _; vm_compute; reflexivity]. eexists _, _. split; [vm_compute; reflexivity|reflexivity].
Qed.
