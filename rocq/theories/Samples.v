(** * Small concrete grammars used to show that theorem hypotheses are met. *)
From Verif Require Import Base Utf8 Escape TrieM LineInfo Ope Ctx ErrLog Engine Top.

Definition plain (name : string) (body : ope) : rule :=
  {| r_name := bs name; r_body := Some body; r_ignore := false; r_is_macro := false; r_params := [];
     r_disable_action := false; r_lr := false; r_can_be_empty := false; r_macro_ref := false;
     r_error_message := []; r_no_ast_opt := false; r_no_whitespace := false; r_ast_name := bs name |}.
Definition lit (s : string) : ope := Lit (bs s) false.
Definition seqs (l : list ope) : ope := Seq None l.
Definition alts (l : list ope) : ope := Cho false [] l.
Definition many (e : ope) : ope := Rep e 0 None None.

(** A parser over [g] with no callbacks but an optional log and tracer; the
    value of a rule is the text it matched if it has an action. *)
Definition sample (g : grammar) (ws word : option ope) (log tracer : bool) : pobj bytes unit :=
  {| p_g := g; p_start := 0; p_ws := ws; p_word := word; p_packrat := false; p_slot := fun _ => None;
     p_cached := 0; p_eoi := true; p_tracer := tracer; p_verbose := true; p_log := log; p_u0 := tt;
     p_action := fun _ => Some (fun inp vs u _ => (Some (sub inp (fst (v_sv vs)) (snd (v_sv vs))), u));
     p_pred := fun _ => None; p_enter := fun _ => None; p_leave := fun _ => None;
     p_user := fun _ _ _ vs u => (None, vs, u) |}.
Definition E_of (P : pobj bytes unit) (s : string) : env bytes unit := mk_env P (bs s).
Definition c_of (P : pobj bytes unit) : ctx bytes unit := ctx_new (p_log P) tt.

(** S <- $x<'a'> 'b' / 'a' ↑ 'c' / 'ad' *)
Definition g_choice : grammar :=
  [plain "S" (alts [seqs [Cap (bs "x") (lit "a"); lit "b"]; seqs [lit "a"; Cut; lit "c"]; lit "ad"])].
Definition o_choice : ope :=
  alts [seqs [Cap (bs "x") (lit "a"); lit "b"]; seqs [lit "a"; Cut; lit "c"]; lit "ad"].
