(** * The textbook PEG that a grammar denotes.

    A rule is a nonterminal.  What automatic whitespace skipping adds is made
    explicit: after a literal and after a token boundary the nonterminal [NSkip]
    follows, which is empty inside a token boundary and inside the whitespace
    expression; hence a rule is one nonterminal per mode it is used in.  A macro
    call is a nonterminal with its arguments.  Everything that only concerns
    values (captures, scopes, ignored values, first sets, guards) disappears.

    Not covered (the nonterminal [NBad] has no derivation):
    case-insensitive classes (undefined behaviour beyond U+00FF), back references, custom parsers, precedence
    climbing, recovery, cut (see C21-C23).  Left-recursive rules are read as
    iterations before ([iterate], LrSpec.v, C19); word boundaries (%word) are added
    in PegWord.v. *)
From Verif Require Import Base TrieM Ope Engine RefSem PegSpec DicDen.

Inductive nt :=
| NRule (r : rid) (m : mode)
| NMacro (r : rid) (m : mode) (args : list ope)
| NArg (fr : fram) (m : mode) (a : ope)
| NSkip (m : mode)
| NDic (t : trie)          (* the words of a dictionary, longest first (DicDen.v) *)
| NBad.

(** One of the ranges contains the code point. *)
Definition in_class (rs : list (N * N)) (neg : bool) (cp : N) : bool :=
  xorb neg (existsb (fun r => (fst r <=? cp) && (cp <=? snd r))%N rs).

(** A text the expression compares with: of a literal, or a word of a dictionary. *)
Definition word_of (o : ope) (w : bytes) : Prop :=
  match o with Lit s _ => w = s | Dic t => In w (dic_words t) | _ => False end.

Section Den.
  Variable g : grammar.
  Variable ws : option ope.

  Definition inside_token (m : mode) : mode :=
    match ws with Some _ => {| m_tok := true; m_ws := m_ws m |} | None => m end.
  Definition skips (m : mode) (e : pexp nt) : pexp nt := PSeq e (PNT (NSkip m)).

  Fixpoint den (fr : fram) (m : mode) (o : ope) : pexp nt :=
    match o with
    | Seq _ l => PSeqs (map (den fr m) l)
    | Cho _ _ l => PAlts (map (den fr m) l)
    | Rep e mn mx _ => PRepeat mn mx (den fr m e)
    | And e => PAnd (den fr m e)
    | Not e => PNot (den fr m e)
    | Lit s ic => skips m (PLit ic s)
    | Cls rs neg false => PChr (in_class rs neg)
    | Chr c => PChr (N.eqb c)
    | Dot => PChr (fun _ => true)
    | Csc e | Cap _ e | Ign e => den fr m e
    | Tok e => skips m (den fr (inside_token m) e)
    | Wsp e => if m_ws m then PEps else den fr {| m_tok := m_tok m; m_ws := true |} e
    | Wkh r | Hld r => PNT (NRule r m)
    | Ref _ (Some r) _ _ args =>
      match nth_error g r with
      | Some d => if r_is_macro d then
                    match subst_args (fst fr) (snd fr) args with
                    | Ok args' => PNT (NMacro r m args')
                    | _ => PNT NBad
                    end
                  else PNT (NRule r m)
      | None => PNT NBad
      end
    | Ref _ None i _ _ =>
      match nth_error (snd fr) i with Some a => PNT (NArg fr m a) | None => PNT NBad end
    | Dic t => skips m (PNT (NDic t))
    | Cls _ _ true | Usr _ | Bkr _ | Pre _ _ _ _ | Rcv _ | Cut | Nul => PNT NBad
    end.

  Definition peg_of (n : nt) : pexp nt :=
    match n with
    | NRule r m =>
      match nth_error g r with
      | Some d =>
        match r_body d with
        | Some body =>
          if r_is_macro d || r_lr d then PNT NBad
          else if r_no_whitespace d then skips m (den (r_params d, []) (inside_token m) body)
          else den (r_params d, []) m body
        | None => PNT NBad
        end
      | None => PNT NBad
      end
    | NMacro r m args =>
      match nth_error g r with
      | Some d =>
        match r_body d with
        | Some body => if r_is_macro d && negb (r_lr d) then den (r_params d, args) m body else PNT NBad
        | None => PNT NBad
        end
      | None => PNT NBad
      end
    | NArg fr m a => den fr m a
    | NSkip m =>
      match ws with
      | None => PEps
      | Some w => if m_tok m then PEps else den ([], []) m w
      end
    | NDic t => dic_exp t
    | NBad => PNT NBad
    end.
End Den.
