(** * C54: the values of a parse are the values of its parse tree; C19: left-recursive
    rules nest to the left. *)
From Verif Require Import Base BaseLemmas Utf8 Utf8Spec Escape TrieM TrieSpec LineInfo Ope Ctx ErrLog Engine EngineLemmas Top RefSem Refine TopRef PegSpec PegFacts PegDen PegWord PegRef
  GrammarCond PegEngine LrSpec FirstTop TreeSpec TreeTop TreeDet Samples PropPeg PropMemo PropRec.

Section TreeProps.
  Context {V U : Type}.
  Implicit Types (P : pobj V U).
  Definition tree_of P (input : bytes) (y : option found) : Prop := whole (p_g P) (p_ws P) (p_word P) (p_start P) input y.

  Lemma parse_is_evaluation P input dt md mm y :
    core_parser md mm P -> bare_parser P -> pure (mk_env P input) -> (forall q, p_pred P q = None) -> settled (iterated P) input ->
    tree_of P input y ->
    exists b reps res F, (forall fuel, F <= fuel -> parser_parse fuel P input dt = Ok (b, reps, res))
      /\ b = rs_ret res
      /\ match y with
         | None => b = false
         | Some f => b = negb (p_eoi P) || (f_len f =? List.length input)
                     /\ rs_len res = f_len f
                     /\ (recognize_only P = false -> v_vals (rs_vs res) = map (value P input) (f_kids f)
                                                     /\ v_tags (rs_vs res) = map (fun t => tag_of (p_g P) (t_rule t)) (f_kids f))
         end.
  Proof.
    intros Hc Hb Hp Hpr Hs Hy. destruct (tree_values P input dt md mm Hc (bare_parser_anns P input Hb) Hp Hpr Hs) as (z & Hz & H).
    now rewrite (whole_det _ _ _ _ _ _ _ Hy Hz) in H.
  Qed.
  Lemma one_tree P input md mm :
    core_parser md mm P -> bare_parser P -> (forall q, p_pred P q = None) -> settled (iterated P) input ->
    exists y, tree_of P input y /\ forall z, tree_of P input z -> z = y.
  Proof.
    intros Hc Hb Hpr (k & x & Hx). destruct (ref_tree P input md mm k x Hc (bare_parser_anns P input Hb) Hpr Hx) as (j & y & D & _).
    exists y. split; [exact D|]. intros z Hz. exact (whole_det _ _ _ _ _ _ _ D Hz).
  Qed.

  (** Trees of a left-recursive rule. *)
  Lemma grow_folds g ws input le de m r d l a pos t t' : grow g ws input le de m r d l a pos t t' ->
    exists fs, t' = fold_left (lean d r (Cho false [] l) pos) fs t
      /\ Forall (fun f => 0 < f_len f /\ exists q, der_cho g ws input le de (r_params d, []) m (List.length l) 0 (map (Seq None) a) q (Some f)) fs.
  Proof.
    induction 1 as [|m r d l a pos t f t' Hc Hn Hg (fs & -> & HF)]; [exists []; split; [reflexivity|constructor]|].
    exists (f :: fs). split; [reflexivity|]. constructor; [|exact HF]. split; [exact Hn|]. eexists. exact Hc.
  Qed.
End TreeProps.

(** ** C54.  [tree_of P input y] (TreeSpec.v): y is the outcome of the grammar on the
    input, as parse trees.  [value P input]: the bottom-up evaluation of a tree by
    the actions.  [settled (iterated P)]: the grammar does not recurse for ever on
    this input.  Core operators, actions that do not depend on the user data. *)
Theorem C54_values_are_evaluated_trees_partial :
  forall (V U : Type) (P : pobj V U) (input : bytes) (dt : U) md mm (y : option found),
  core_parser md mm P -> bare_parser P -> pure (mk_env P input) -> (forall q, p_pred P q = None) -> settled (iterated P) input ->
  tree_of P input y ->
  exists b reps res F, (forall fuel, F <= fuel -> parser_parse fuel P input dt = Ok (b, reps, res))
    /\ b = rs_ret res
    /\ match y with
       | None => b = false
       | Some f => b = negb (p_eoi P) || (f_len f =? List.length input)
                   /\ rs_len res = f_len f
                   /\ (recognize_only P = false -> v_vals (rs_vs res) = map (value P input) (f_kids f)
                                                   /\ v_tags (rs_vs res) = map (fun t => tag_of (p_g P) (t_rule t)) (f_kids f))
       end.
Proof. exact @parse_is_evaluation. Qed.
Print Assumptions C54_values_are_evaluated_trees_partial.
(** Every settled input has exactly one outcome. *)
Theorem C54_exactly_one_tree_partial :
  forall (V U : Type) (P : pobj V U) (input : bytes) md mm,
  core_parser md mm P -> bare_parser P -> (forall q, p_pred P q = None) -> settled (iterated P) input ->
  exists y, tree_of P input y /\ forall z, tree_of P input z -> z = y.
Proof. exact @one_tree. Qed.
Print Assumptions C54_exactly_one_tree_partial.
(** The trees of a grammar are unambiguous, settled or not. *)
Theorem C54_trees_are_unambiguous_partial : forall (g : grammar) ws word start (input : bytes) x y,
  whole g ws word start input x -> whole g ws word start input y -> y = x.
Proof. exact whole_det. Qed.
Print Assumptions C54_trees_are_unambiguous_partial.
(** What the caller of parse(s, val) gets, when the whitespace leaves no values:
    the value of the tree of the start rule. *)
Theorem C54_value_of_the_parse_partial :
  forall (V U : Type) (P : pobj V U) (input : bytes) (dt : U) md mm (f : found) d t,
  core_parser md mm P -> bare_parser P -> pure (mk_env P input) -> (forall q, p_pred P q = None) -> settled (iterated P) input ->
  recognize_only P = false ->
  nth_error (p_g P) (p_start P) = Some d -> r_ignore d = false -> f_kids f = [] -> tree_of P input (Some (join f (used d t))) ->
  p_eoi P = false \/ f_len f + t_len t = List.length input ->
  exists reps res F, (forall fuel, F <= fuel -> parser_parse fuel P input dt = Ok (true, reps, res))
    /\ result_value res = value P input t.
Proof.
  intros V U P input dt md mm f d t Hc Hb Hp Hpr Hs Hrec Hd Hi Hk Hy Hl.
  destruct (parse_is_evaluation P input dt md mm _ Hc Hb Hp Hpr Hs Hy) as (b & reps & res & F & H1 & H2 & H3 & H4 & H5).
  specialize (H5 Hrec). unfold used in *. rewrite Hi in *. cbn [join f_len f_kids] in *. rewrite Hk in *. cbn in H5. destruct H5 as [H5 _].
  assert (Hbt : b = true). { rewrite H3. destruct Hl as [-> | Hl]; [reflexivity|]. rewrite Hl, Nat.eqb_refl. apply orb_true_r. }
  exists reps, res, F. rewrite Hbt in *. split; [exact H1|]. unfold result_value. rewrite <- H2, H5. reflexivity.
Qed.
Print Assumptions C54_value_of_the_parse_partial.

(** ** C19, values.  The tree of a left-recursive rule is the tree of one of the other
    alternatives, wrapped once per continuation: each new tree has the previous one
    as its first subtree. *)
Theorem C19_trees_nest_to_the_left_partial :
  forall (g : grammar) ws (input : bytes) le de m r d fl fs0 l a b pos t,
  nth_error g r = Some d -> r_lr d = true -> r_body d = Some (Cho fl fs0 l) -> split_lr r l = (a, b) ->
  der_rule g ws input le de m r pos (Some t) ->
  exists f0 fs,
    der_cho g ws input le de (r_params d, []) m (List.length l) (List.length a) b pos (Some f0)
    /\ Forall (fun f => 0 < f_len f /\ exists q, der_cho g ws input le de (r_params d, []) m (List.length l) 0 (map (Seq None) a) q (Some f)) fs
    /\ t = fold_left (fun t f => node r (Cho fl fs0 l) pos (join (used d t) f)) fs (node r (Cho fl fs0 l) pos f0).
Proof.
  intros g ws input le de m r d fl fs0 l a b pos t Hd Hlr Hb Hs H. inversion H; subst; try congruence.
  repeat match goal with
    | A : nth_error g r = Some ?x, B : nth_error g r = Some ?y |- _ => assert (y = x) by congruence; subst y; clear B
    | A : r_body ?d = Some _, B : r_body ?d = Some _ |- _ => rewrite A in B; injection B; clear B; intros; subst
    | A : split_lr _ _ = _, B : split_lr _ _ = _ |- _ => rewrite A in B; injection B; clear B; intros; subst
    end.
  match goal with A : der_cho _ _ _ _ _ _ _ _ _ _ _ (Some ?f), G : grow _ _ _ _ _ _ _ _ _ _ _ _ _ |- _ =>
      destruct (grow_folds _ _ _ _ _ _ _ _ _ _ _ _ _ G) as (gs & Hgs & HF); exists f, gs; split; [exact A|]; split; [exact HF|]; exact Hgs end.
Qed.
Print Assumptions C19_trees_nest_to_the_left_partial.
(** With an action, the value is computed by folding the action from the left. *)
Theorem C19_values_nest_to_the_left_partial :
  forall (V U : Type) (P : pobj V U) (input : bytes) r d body pos t (f : found) act,
  nth_error (p_g P) r = Some d -> r_ignore d = false -> r_disable_action d = false -> p_action P r = Some act -> p_leave P r = None -> t_rule t = r ->
  value P input (node r body pos (join (used d t) f))
  = fst (act input {| v_vals := value P input t :: map (value P input) (f_kids f);
                      v_tags := str2tag (r_name d) :: map (fun k => tag_of (p_g P) (t_rule k)) (f_kids f);
                      v_toks := f_toks f; v_sv := (pos, t_len t + f_len f);
                      v_cc := fst (alt_of body f); v_ch := snd (alt_of body f); v_name := Some r |} (p_u0 P) None).
Proof.
  intros V U P input r d body pos t f act Hd Hi Hm Ha Hl Ht. unfold value, node. cbn [eval]. rewrite Ha, Hl. unfold muted. rewrite Hd, Hm.
  unfold used. rewrite Hi. cbn [join f_len f_kids f_toks map app]. unfold tag_of at 1. rewrite Ht, Hd.
  replace (alt_of body (join {| f_len := t_len t; f_kids := [t]; f_toks := []; f_alt := None |} f)) with (alt_of body f); [reflexivity|].
  unfold alt_of, join. cbn. destruct (is_choice_like _), (f_alt f); reflexivity.
Qed.
Print Assumptions C19_values_nest_to_the_left_partial.

(** *** A concrete case: subtraction,  S <- E   E <- E '-' N / N   N <- < [0-9] >   with
    %whitespace <- [ ]* ; "7-2 -1" is 4, not 6. *)
Definition rule_N : ope := Ref (bs "N") (Some 2) 0 false [].
Definition g_minus : grammar :=
  [plain "S" rule_E; lr_rule "E" (alts [seqs [rule_E; lit "-"; rule_N]; rule_N]); plain "N" (Tok (Cls [(48, 57)%N] false false))].
Definition minus_action (r : rid) : option (bytes -> sv N -> unit -> option N -> option N * unit) :=
  match r with
  | 1 => Some (fun _ vs u _ => (match v_vals vs with
                                | [Some a; Some b] => if v_ch vs =? 0 then Some (a - b)%N else None
                                | v :: _ => v
                                | [] => None
                                end, u))
  | 2 => Some (fun inp vs u _ => (match v_toks vs with
                                  | (p, _) :: _ => option_map (fun c => Byte.to_N c - 48)%N (nth_error inp p)
                                  | [] => None
                                  end, u))
  | _ => None
  end.
Definition P_minus : pobj N unit :=
  {| p_g := g_minus; p_start := 0; p_ws := Some w_sum; p_word := None; p_packrat := false; p_slot := fun _ => None;
     p_cached := 0; p_eoi := true; p_tracer := false; p_verbose := true; p_log := true; p_u0 := tt;
     p_action := minus_action; p_pred := fun _ => None; p_enter := fun _ => None; p_leave := fun _ => None;
     p_user := fun _ _ _ vs u => (None, vs, u) |}.
Example C54_meets : exists y reps res,
  core_parser (fun _ => m_top) [m_top; {| m_tok := true; m_ws := false |}] P_minus /\ bare_parser P_minus /\ pure (mk_env P_minus (bs "7-2 -1"))
  /\ settled (iterated P_minus) (bs "7-2 -1") /\ recognize_only P_minus = false
  /\ tree_of P_minus (bs "7-2 -1") y
  /\ parser_parse 60 P_minus (bs "7-2 -1") tt = Ok (true, reps, res) /\ result_value res = Some 4%N.
Proof.
  assert (Hc : core_parser (fun _ => m_top) [m_top; {| m_tok := true; m_ws := false |}] P_minus).
  { constructor; try reflexivity; [|discriminate]. split; [reflexivity|]. eexists. split; reflexivity. }
  assert (Hb : bare_parser P_minus) by (split; [reflexivity|split; (reflexivity || exact I)]).
  assert (Hs : settled (iterated P_minus) (bs "7-2 -1")) by (eexists 30, _; vm_compute; reflexivity).
  destruct (one_tree P_minus (bs "7-2 -1") _ _ Hc Hb (fun _ => eq_refl) Hs) as (y & Hy & _).
  eexists y, _, _. split; [exact Hc|]. split; [exact Hb|]. split.
  { constructor; cbn; [|discriminate|discriminate]. intros r f inp vs u u' pd H. destruct r as [|[|[|r]]]; cbn in H; try discriminate; injection H as <-; reflexivity. }
  split; [exact Hs|]. split; [reflexivity|]. split; [exact Hy|]. split; [vm_compute; reflexivity|]. reflexivity.
Qed.
