(** * The textbook PEG of a grammar with %word.

    After every literal that itself starts with a word, no word may follow: the
    literal [s] becomes [s !word] (and after a word of a dictionary no word may follow
    at all), where [word] is the %word expression, read
    without whitespace skipping and without word boundaries of its own.

    Whether a literal starts with a word is given by [isw]; [isw] must say what
    the %word expression does on the literal ([word_table]).  Where [isw] is
    silent the literal has no derivation. *)
From Verif Require Import Base Ope Engine RefSem PegSpec DicDen PegDen.

Inductive wnt :=
| WMain (n : nt)          (* the grammar, with word boundaries after literals *)
| WWord (n : nt)          (* the grammar as used by the %word expression *)
| WBound (s : bytes)      (* the word boundary after the literal [s] *)
| WEnd.                   (* no word follows: after a word of a dictionary *)

Fixpoint pmap {A B} (f : A -> B) (e : pexp A) : pexp B :=
  match e with
  | PEps => PEps
  | PLit ic w => PLit ic w
  | PChr ok => PChr ok
  | PNT n => PNT (f n)
  | PSeq a b => PSeq (pmap f a) (pmap f b)
  | PAlt a b => PAlt (pmap f a) (pmap f b)
  | PStar a => PStar (pmap f a)
  | PNot a => PNot (pmap f a)
  end.
(** A boundary after every literal. *)
Fixpoint bounded (e : pexp nt) : pexp wnt :=
  match e with
  | PEps => PEps
  | PLit ic w => PSeq (PLit ic w) (PNT (WBound w))
  | PChr ok => PChr ok
  | PNT n => PNT (WMain n)
  | PSeq a b => PSeq (bounded a) (bounded b)
  | PAlt a b => PAlt (bounded a) (bounded b)
  | PStar a => PStar (bounded a)
  | PNot a => PNot (bounded a)
  end.

Section Word.
  Variable g : grammar.
  Variable ws word : option ope.
  Variable isw : bytes -> option bool.

  (** The %word expression as a textbook expression over [peg_of g None]. *)
  Definition word_exp (w : ope) : pexp nt := den g None ([], []) m_top w.
  Definition peg_word (n : wnt) : pexp wnt :=
    match n with
    | WMain (NDic t) => PSeq (PNT (WWord (NDic t))) (PNT WEnd)
    | WMain n => bounded (peg_of g ws n)
    | WWord n => pmap WWord (peg_of g None n)
    | WBound s =>
      match word with
      | None => PEps
      | Some w =>
        match isw s with
        | Some true => PNot (pmap WWord (word_exp w))
        | Some false => PEps
        | None => PNT (WWord NBad)
        end
      end
    | WEnd => match word with None => PEps | Some w => PNot (pmap WWord (word_exp w)) end
    end.
  (** [isw] is right where it answers. *)
  Definition word_table : Prop :=
    forall w s, word = Some w ->
      match isw s with
      | Some true => exists t, peg (peg_of g None) (word_exp w) s (Some t)
      | Some false => peg (peg_of g None) (word_exp w) s None
      | None => True
      end.

  Lemma unword e s r : peg peg_word (pmap WWord e) s r -> peg (peg_of g None) e s r.
  Proof.
    intros H. remember (pmap WWord e) as e' eqn:He. revert e He.
    induction H as [s|ic w x s Hx|ic w s Hn|ok cp x s Hs Hx Ho|ok cp x s Hs Hx Ho|ok|n s r _ IH|a b s t r _ IHa _ IHb
      |a b s _ IHa|a b s t _ IHa|a b s r _ IHa _ IHb|a s _ IHa|a s t r _ IHa _ IHb|a s t _ IHa|a s _ IHa];
      intros [] He; try discriminate; cbn [pmap] in He; (try (injection He; clear He; intros)); subst.
    - constructor.
    - constructor. assumption.
    - constructor. assumption.
    - econstructor; eassumption.
    - eapply peg_chr_no; eassumption.
    - constructor.
    - apply peg_nt. now apply IH.
    - eapply peg_seq; eauto.
    - apply peg_seq_no; eauto.
    - apply peg_alt1; eauto.
    - apply peg_alt2; eauto.
    - apply peg_star_end; eauto.
    - eapply peg_star; eauto.
    - eapply peg_not; eauto.
    - apply peg_not_no; eauto.
  Qed.
End Word.

Lemma pmap_dic {A B} (f : A -> B) t : pmap f (dic_exp t) = dic_exp t.
Proof. unfold dic_exp. generalize (dic_words t). intros l. induction l as [|w l IH]; [reflexivity|]. cbn. f_equal. exact IH. Qed.
Lemma dic_word g ws word isw t s r : peg (peg_of g ws) (dic_exp t) s r -> peg (peg_word g ws word isw) (PNT (WWord (NDic t))) s r.
Proof. intros H. apply peg_nt. cbn [peg_word peg_of]. rewrite pmap_dic. eapply dic_any, H. Qed.
Lemma word_dic_exp g ws word isw t s r : peg (peg_word g ws word isw) (PNT (WWord (NDic t))) s r -> peg (peg_of g ws) (dic_exp t) s r.
Proof. intros H. inversion H as [| | | | | |? ? ? H1| | | | | | | |]; subst. cbn [peg_word peg_of] in H1. rewrite pmap_dic in H1. eapply dic_any, H1. Qed.

(** Without %word the boundaries are empty. *)
Lemma bounded_none g ws isw e s r : peg (peg_of g ws) e s r -> peg (peg_word g ws None isw) (bounded e) s r.
Proof.
  assert (B : forall w t, peg (peg_word g ws None isw) (PNT (WBound w)) t (Some t)) by (intros; apply peg_nt; constructor).
  assert (B' : forall t, peg (peg_word g ws None isw) (PNT WEnd) t (Some t)) by (intros; apply peg_nt; constructor).
  induction 1 as [s|ic w x s Hx|ic w s Hn|ok cp x s Hs Hx Ho|ok cp x s Hs Hx Ho|ok|n s r Hn IH|a b s t r _ IHa _ IHb
      |a b s _ IHa|a b s t _ IHa|a b s r _ IHa _ IHb|a s _ IHa|a s t r _ IHa _ IHb|a s t _ IHa|a s _ IHa]; cbn [bounded].
  - constructor.
  - eapply peg_seq; [|apply B]. now constructor.
  - apply peg_seq_no. now constructor.
  - econstructor; eassumption.
  - eapply peg_chr_no; eassumption.
  - constructor.
  - apply peg_nt. destruct n as [| | | |t|]; try exact IH. cbn [peg_word]. cbn [peg_of] in Hn. apply (dic_word _ _ None isw) in Hn.
    destruct r as [u|]; [eapply peg_seq; [exact Hn|apply B']|now apply peg_seq_no].
  - eapply peg_seq; eauto.
  - apply peg_seq_no; eauto.
  - apply peg_alt1; eauto.
  - apply peg_alt2; eauto.
  - apply peg_star_end; eauto.
  - eapply peg_star; eauto.
  - eapply peg_not; eauto.
  - apply peg_not_no; eauto.
Qed.
Lemma unbounded_none g ws isw e s r : peg (peg_word g ws None isw) (bounded e) s r -> peg (peg_of g ws) e s r.
Proof.
  intros H. remember (bounded e) as e' eqn:He. revert e He.
  assert (B : forall w t r, peg (peg_word g ws None isw) (PNT (WBound w)) t r -> r = Some t).
  { intros w t r' X. inversion X; subst. cbn in *. match goal with Y : peg _ PEps _ _ |- _ => inversion Y; reflexivity end. }
  assert (B' : forall t r, peg (peg_word g ws None isw) (PNT WEnd) t r -> r = Some t).
  { intros t r' X. inversion X; subst. cbn in *. match goal with Y : peg _ PEps _ _ |- _ => inversion Y; reflexivity end. }
  induction H as [s|ic w x s Hx|ic w s Hn|ok cp x s Hs Hx Ho|ok cp x s Hs Hx Ho|ok|n s r Hn IH|a b s t r Ha IHa Hb IHb
      |a b s Ha IHa|a b s t _ IHa|a b s r _ IHa _ IHb|a s _ IHa|a s t r _ IHa _ IHb|a s t _ IHa|a s _ IHa];
      intros [] He; try discriminate; cbn [bounded] in He; (try (injection He; clear He; intros)); subst.
  - constructor.
  - econstructor; eassumption.
  - eapply peg_chr_no; eassumption.
  - constructor.
  - apply peg_nt. match goal with |- peg _ (peg_of g ws ?x) _ _ => destruct x as [| | | |t|] end; try now apply IH.
    cbn [peg_word] in Hn. cbn [peg_of]. inversion Hn as [| | | | | | |? ? ? ? ? H1 H2|? ? ? H1| | | | | |]; subst.
    + apply B' in H2. subst r. eapply word_dic_exp, H1.
    + eapply word_dic_exp, H1.
  - apply B in Hb. subst r. inversion Ha; subst. now constructor.
  - eapply peg_seq; eauto.
  - inversion Ha; subst. now constructor.
  - apply peg_seq_no; eauto.
  - apply peg_alt1; eauto.
  - apply peg_alt2; eauto.
  - apply peg_star_end; eauto.
  - eapply peg_star; eauto.
  - eapply peg_not; eauto.
  - apply peg_not_no; eauto.
Qed.
