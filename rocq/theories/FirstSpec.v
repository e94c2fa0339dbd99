(** * What can come first (vocabulary of C16): which bytes an expression can start
    with, whether it can match the empty text, and which rules it calls before
    consuming anything.  Written against the grammar alone; the first-set
    algorithm is not used. *)
From Verif Require Import Base Utf8 Escape TrieM Ope Engine FirstSetM.

(** A byte that matches [b0] when case is (not) ignored. *)
Definition same_char (ic : bool) (b0 b : byte) : Prop := if ic then tolower b = tolower b0 else b = b0.

(** Irregular ways to begin:
    [Gap]: white space after a token that matched nothing; [Nested]: a white space
    expression (which matches nothing inside another one); [NulByte]: a class containing code point 0, which is what malformed
    bytes decode to; [Case]: a case-insensitive range accepting a character that
    neither is in the range nor differs from a member only in case; [Operand]: a
    precedence expression whose first operand matched nothing (it goes on with an
    operator). *)
Inductive oddity := Gap | NulByte | Case | Nested | Operand.
Inductive sym :=
| SByte (b : byte)        (* a definite first byte *)
| SAny                    (* cannot be predicted *)
| SOdd (w : oddity)
| SCall (r : rid).        (* rule [r] is called *)

Section First.
  Variable g : grammar.
  Definition rule_body (r : rid) (d : rule) (b : ope) : Prop :=
    nth_error g r = Some d /\ r_body d = Some b.

  (** May match the empty text. *)
  Inductive may_be_empty : ope -> Prop :=
  | me_seq kg l : Forall may_be_empty l -> may_be_empty (Seq kg l)
  | me_cho fl fs l o : In o l -> may_be_empty o -> may_be_empty (Cho fl fs l)
  | me_rep0 e mx sp : may_be_empty (Rep e 0 mx sp)
  | me_rep e mn mx sp : may_be_empty e -> may_be_empty (Rep e mn mx sp)
  | me_and e : may_be_empty (And e)
  | me_not e : may_be_empty (Not e)
  | me_cut : may_be_empty Cut
  | me_lit ic : may_be_empty (Lit [] ic)
  | me_csc e : may_be_empty e -> may_be_empty (Csc e)
  | me_cap nm e : may_be_empty e -> may_be_empty (Cap nm e)
  | me_tok e : may_be_empty e -> may_be_empty (Tok e)
  | me_ign e : may_be_empty e -> may_be_empty (Ign e)
  | me_wsp e : may_be_empty e -> may_be_empty (Wsp e)
  | me_rcv e : may_be_empty e -> may_be_empty (Rcv e)
  | me_pre a b i r : may_be_empty a -> may_be_empty (Pre a b i r)
  | me_wkh r d b : rule_body r d b -> may_be_empty b -> may_be_empty (Wkh r)
  | me_hld r d b : rule_body r d b -> may_be_empty b -> may_be_empty (Hld r)
  | me_ref nm r ia m args d b : rule_body r d b -> may_be_empty b -> may_be_empty (Ref nm (Some r) ia m args).

  (** Can begin with [c]. *)
  Inductive starts : ope -> sym -> Prop :=
  | st_seq kg l1 o l2 c : Forall may_be_empty l1 -> starts o c -> starts (Seq kg (l1 ++ o :: l2)) c
  | st_cho fl fs l o c : In o l -> starts o c -> starts (Cho fl fs l) c
  | st_rep e mn mx sp c : starts e c -> starts (Rep e mn mx sp) c
  | st_csc e c : starts e c -> starts (Csc e) c
  | st_cap nm e c : starts e c -> starts (Cap nm e) c
  | st_tok e c : starts e c -> starts (Tok e) c
  | st_ign e c : starts e c -> starts (Ign e) c
  | st_wsp e c : starts e c -> starts (Wsp e) c
  | st_rcv e c : starts e c -> starts (Rcv e) c
  | st_pre a b i r c : starts a c -> starts (Pre a b i r) c
  | st_lit s ic b0 b : same_char ic b0 b -> starts (Lit (b0 :: s) ic) (SByte b)
  | st_dic t b0 k i b : In (b0 :: k, i) (t_dic t) -> same_char (t_ignore_case t) b0 b -> starts (Dic t) (SByte b)
  | st_cls rs lo hi ic b0 b : ascii_ranges rs = true -> In (lo, hi) rs -> (lo <= bN b0 <= hi)%N -> same_char ic b0 b ->
      starts (Cls rs false ic) (SByte b)
  | st_cls_wide rs neg ic : neg = true \/ ascii_ranges rs = false -> starts (Cls rs neg ic) SAny
  | st_chr b : (bN b <= 0x7F)%N -> starts (Chr (bN b)) (SByte b)
  | st_chr_wide cp : (0x7F < cp)%N -> starts (Chr cp) SAny
  | st_dot : starts Dot SAny
  | st_usr id : starts (Usr id) SAny
  | st_bkr nm : starts (Bkr nm) SAny
  | st_param nm ia m args : starts (Ref nm None ia m args) SAny
  | st_call nm r ia m args : starts (Ref nm (Some r) ia m args) (SCall r)
  | st_ref nm r ia m args d b c : rule_body r d b -> starts b c -> starts (Ref nm (Some r) ia m args) c
  | st_wkh r d b c : rule_body r d b -> starts b c -> starts (Wkh r) c
  | st_hld r d b c : rule_body r d b -> starts b c -> starts (Hld r) c
  (* irregular beginnings *)
  | st_tok_gap e : may_be_empty e -> starts (Tok e) (SOdd Gap)
  | st_lit_gap ic : starts (Lit [] ic) (SOdd Gap)
  | st_wsp_gap e : starts (Wsp e) (SOdd Nested)
  | st_pre_gap a b i r : may_be_empty a -> starts (Pre a b i r) (SOdd Operand)
  | st_ref_gap nm r ia m args d b : rule_body r d b -> r_no_whitespace d = true -> may_be_empty b ->
      starts (Ref nm (Some r) ia m args) (SOdd Gap)
  | st_wkh_gap r d b : rule_body r d b -> r_no_whitespace d = true -> may_be_empty b -> starts (Wkh r) (SOdd Gap)
  | st_hld_gap r d b : rule_body r d b -> r_no_whitespace d = true -> may_be_empty b -> starts (Hld r) (SOdd Gap)
  | st_cls_nul rs lo hi ic : In (lo, hi) rs -> lo = 0%N -> starts (Cls rs false ic) (SOdd NulByte)
  | st_chr_nul : starts (Chr 0) (SOdd NulByte)
  | st_cls_case rs b : in_ranges true rs (bN b) = Ok true ->
      (forall lo hi b0, In (lo, hi) rs -> (lo <= bN b0 <= hi)%N -> tolower b0 <> tolower b) ->
      starts (Cls rs false true) (SOdd Case).

  (** ** Conditions under which skipping by first byte is harmless *)

  (** No rule that can match the empty text calls itself first. *)
  Definition no_empty_recursion : Prop :=
    forall r d b, rule_body r d b -> starts b (SCall r) -> ~ may_be_empty b.

  (** Part of an expression (macro arguments and operators of a precedence
      expression are not: nothing is attached to them). *)
  Fixpoint sub_ope (x o : ope) : Prop :=
    x = o \/
    let fix any l := match l with [] => False | a :: l' => sub_ope x a \/ any l' end in
    match o with
    | Seq _ l | Cho _ _ l => any l
    | Rep e _ _ _ | And e | Not e | Csc e | Cap _ e | Ign e | Tok e | Wsp e | Rcv e | Pre e _ _ _ => sub_ope x e
    | _ => False
    end.
  (** Every alternative of every choice of the grammar begins regularly.  [gaps]:
      there is a %whitespace; [odd]: the text has bytes outside ASCII. *)
  Definition regular_alternatives (gaps odd : bool) : Prop :=
    forall r d b fl fs l o, rule_body r d b -> sub_ope (Cho fl fs l) b -> In o l ->
      ~ starts o (SOdd Case) /\ (~ starts o (SOdd Nested) /\ ~ starts o (SOdd Operand))
      /\ (gaps = true -> ~ starts o (SOdd Gap))
      /\ (odd = true -> ~ starts o (SOdd NulByte)).
End First.

(** Every encoded ASCII character is encoded in one byte (no overlong forms). *)
Definition plain_text (t : bytes) : Prop :=
  forall pos n cp, pos < List.length t ->
    decode_codepoint_len (skipn pos t) (List.length t - pos) 0%N = Ok (n, cp) -> n <> 0 -> (cp <= 0x7F)%N -> n = 1.
Definition ascii_text (t : bytes) : Prop := forall b, In b t -> (bN b <= 0x7F)%N.

(** ** Conditions under which a repetition of an ASCII class may be scanned byte by byte *)

(** A case-insensitive class accepts exactly the characters that are in one of its
    ranges up to case. *)
Definition class_exact (rs : ranges) : Prop :=
  forall b, in_ranges true rs (bN b) = Ok true <->
    exists lo hi b0, In (lo, hi) rs /\ (lo <= bN b0 <= hi)%N /\ tolower b0 = tolower b.
Definition regular_spans (g : grammar) (odd : bool) : Prop :=
  forall r d b rs ic mn mx sp, rule_body g r d b -> sub_ope (Rep (Cls rs false ic) mn mx sp) b ->
    ascii_ranges rs = true ->
    (forall x, mx = Some x -> mn <= x)
    /\ (ic = true -> class_exact rs)
    /\ (odd = true -> forall lo hi, In (lo, hi) rs -> lo <> 0%N).
