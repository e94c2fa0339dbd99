(** * Parsing context: SemanticValues (peglib.h 575-676), ErrorInfo (815-843),
    Context (1002-1437).  Fields that only cache capacity are dropped
    (simplification): value_stack/args_stack keep popped frames for reuse, here a
    pushed frame is fresh.  Line-index fields are modelled in LineInfo.v. *)
From Verif Require Import Base Utf8 Escape TrieM LineInfo Ope.

(** SemanticValues, peglib.h 575-676.  [std::any] values are [option V]; a
    [string_view] into the input is (position, length). *)
Record sv {V : Type} := {
  v_vals : list (option V);
  v_tags : list N;
  v_toks : list (nat * nat);
  v_sv : nat * nat;
  v_cc : nat;                (* choice_count_ *)
  v_ch : nat;                (* choice_ *)
  v_name : option rid        (* name_ *)
}.
Arguments sv : clear implicits.
Definition sv_new {V} : sv V :=
  {| v_vals := []; v_tags := []; v_toks := []; v_sv := (0, 0); v_cc := 0; v_ch := 0; v_name := None |}.

(** ErrorInfo, peglib.h 815-843; pointers are optional positions. *)
Record errinfo := {
  ei_pos : option nat;
  ei_exp : list (option bytes * option rid);
  ei_mpos : option nat;
  ei_msg : bytes;
  ei_label : bytes;
  ei_last : option nat;
  ei_keep : bool
}.
Definition err_new : errinfo :=
  {| ei_pos := None; ei_exp := []; ei_mpos := None; ei_msg := []; ei_label := [];
     ei_last := None; ei_keep := false |}.

(** One call of the log / error reporter callbacks (ErrorReport 793-803 plus the
    formatted message given to Log). *)
Record report := {
  rp_line : nat; rp_col : nat; rp_position : nat;
  rp_unexpected : bytes;
  rp_literals : list bytes; rp_rules : list bytes;
  rp_message : bytes;      (* custom message of the report *)
  rp_text : bytes;         (* message given to Log *)
  rp_label : bytes
}.

Inductive event :=
| TEnter (o : ope) (pos : nat)
| TLeave (o : ope) (pos : nat) (len : option nat).

(** Context::LRKey (1070-1071).  The macro instantiation component is always 0:
    left-recursive macros are outside the model. *)
Definition lrkey := (rid * nat)%type.

Record ctx {V U : Type} := {
  c_caps : list (bytes * bytes)   (* capture_entries, oldest first (1034) *);
  c_cut : list bool   (* cut_stack, head is back() (1039) *);
  c_err : errinfo   (* error_info (1008) *);
  c_log : bool   (* log or error_reporter is set (1152-1153) *);
  c_rcv : bool   (* recovered (1009) *);
  c_lrm : list (lrkey * (option nat * option V))   (* lr_memo (1073) *);
  c_hits : list rid   (* lr_refs_hit (1077) *);
  c_acts : list lrkey   (* lr_active_seeds (1081) *);
  c_pkr : list (nat * option nat)   (* cache_registered/cache_success/cache_len (1045-1050): absent = not registered, None = failure *);
  c_pkv : list (nat * V)   (* cache_values (1055); the hash table itself is PackratCacheM *);
  c_actp : list (rid * nat)   (* active_pos (1053); absent = nullptr *);
  c_tb : nat   (* in_token_boundary_count (1027) *);
  c_inws : bool   (* in_whitespace (1030) *);
  c_rstk : list rid   (* rule_stack, head is back() (1014) *);
  c_args : list (list ope)   (* args_stack, head is the top frame (1024) *);
  c_prec : list (rid * bytes)   (* active action wrappers of PrecedenceClimbing with their captured token (4174-4197), innermost first *);
  c_out : list report   (* what output_log sent to the callbacks, oldest first *);
  c_ign : bool   (* ignore_trace_state (1431) *);
  c_tids : list nat   (* trace_ids (1430), head is back() *);
  c_tnext : nat   (* next_trace_id (1429) *);
  c_evs : list event   (* calls made to the tracers, newest first *);
  c_dt : U   (* the user data any& dt, threaded through every call *)
}.
Arguments ctx : clear implicits.

Section Setters.
  Context {V U : Type}.
  Implicit Types c : ctx V U.
  Definition set_caps (x : list (bytes * bytes)) c : ctx V U :=
    {| c_caps := x; c_cut := c_cut c; c_err := c_err c; c_log := c_log c; c_rcv := c_rcv c; c_lrm := c_lrm c; c_hits := c_hits c; c_acts := c_acts c; c_pkr := c_pkr c; c_pkv := c_pkv c; c_actp := c_actp c; c_tb := c_tb c; c_inws := c_inws c; c_rstk := c_rstk c; c_args := c_args c; c_prec := c_prec c; c_out := c_out c; c_ign := c_ign c; c_tids := c_tids c; c_tnext := c_tnext c; c_evs := c_evs c; c_dt := c_dt c |}.
  Definition set_cut (x : list bool) c : ctx V U :=
    {| c_caps := c_caps c; c_cut := x; c_err := c_err c; c_log := c_log c; c_rcv := c_rcv c; c_lrm := c_lrm c; c_hits := c_hits c; c_acts := c_acts c; c_pkr := c_pkr c; c_pkv := c_pkv c; c_actp := c_actp c; c_tb := c_tb c; c_inws := c_inws c; c_rstk := c_rstk c; c_args := c_args c; c_prec := c_prec c; c_out := c_out c; c_ign := c_ign c; c_tids := c_tids c; c_tnext := c_tnext c; c_evs := c_evs c; c_dt := c_dt c |}.
  Definition set_err (x : errinfo) c : ctx V U :=
    {| c_caps := c_caps c; c_cut := c_cut c; c_err := x; c_log := c_log c; c_rcv := c_rcv c; c_lrm := c_lrm c; c_hits := c_hits c; c_acts := c_acts c; c_pkr := c_pkr c; c_pkv := c_pkv c; c_actp := c_actp c; c_tb := c_tb c; c_inws := c_inws c; c_rstk := c_rstk c; c_args := c_args c; c_prec := c_prec c; c_out := c_out c; c_ign := c_ign c; c_tids := c_tids c; c_tnext := c_tnext c; c_evs := c_evs c; c_dt := c_dt c |}.
  Definition set_log (x : bool) c : ctx V U :=
    {| c_caps := c_caps c; c_cut := c_cut c; c_err := c_err c; c_log := x; c_rcv := c_rcv c; c_lrm := c_lrm c; c_hits := c_hits c; c_acts := c_acts c; c_pkr := c_pkr c; c_pkv := c_pkv c; c_actp := c_actp c; c_tb := c_tb c; c_inws := c_inws c; c_rstk := c_rstk c; c_args := c_args c; c_prec := c_prec c; c_out := c_out c; c_ign := c_ign c; c_tids := c_tids c; c_tnext := c_tnext c; c_evs := c_evs c; c_dt := c_dt c |}.
  Definition set_rcv (x : bool) c : ctx V U :=
    {| c_caps := c_caps c; c_cut := c_cut c; c_err := c_err c; c_log := c_log c; c_rcv := x; c_lrm := c_lrm c; c_hits := c_hits c; c_acts := c_acts c; c_pkr := c_pkr c; c_pkv := c_pkv c; c_actp := c_actp c; c_tb := c_tb c; c_inws := c_inws c; c_rstk := c_rstk c; c_args := c_args c; c_prec := c_prec c; c_out := c_out c; c_ign := c_ign c; c_tids := c_tids c; c_tnext := c_tnext c; c_evs := c_evs c; c_dt := c_dt c |}.
  Definition set_lrm (x : list (lrkey * (option nat * option V))) c : ctx V U :=
    {| c_caps := c_caps c; c_cut := c_cut c; c_err := c_err c; c_log := c_log c; c_rcv := c_rcv c; c_lrm := x; c_hits := c_hits c; c_acts := c_acts c; c_pkr := c_pkr c; c_pkv := c_pkv c; c_actp := c_actp c; c_tb := c_tb c; c_inws := c_inws c; c_rstk := c_rstk c; c_args := c_args c; c_prec := c_prec c; c_out := c_out c; c_ign := c_ign c; c_tids := c_tids c; c_tnext := c_tnext c; c_evs := c_evs c; c_dt := c_dt c |}.
  Definition set_hits (x : list rid) c : ctx V U :=
    {| c_caps := c_caps c; c_cut := c_cut c; c_err := c_err c; c_log := c_log c; c_rcv := c_rcv c; c_lrm := c_lrm c; c_hits := x; c_acts := c_acts c; c_pkr := c_pkr c; c_pkv := c_pkv c; c_actp := c_actp c; c_tb := c_tb c; c_inws := c_inws c; c_rstk := c_rstk c; c_args := c_args c; c_prec := c_prec c; c_out := c_out c; c_ign := c_ign c; c_tids := c_tids c; c_tnext := c_tnext c; c_evs := c_evs c; c_dt := c_dt c |}.
  Definition set_acts (x : list lrkey) c : ctx V U :=
    {| c_caps := c_caps c; c_cut := c_cut c; c_err := c_err c; c_log := c_log c; c_rcv := c_rcv c; c_lrm := c_lrm c; c_hits := c_hits c; c_acts := x; c_pkr := c_pkr c; c_pkv := c_pkv c; c_actp := c_actp c; c_tb := c_tb c; c_inws := c_inws c; c_rstk := c_rstk c; c_args := c_args c; c_prec := c_prec c; c_out := c_out c; c_ign := c_ign c; c_tids := c_tids c; c_tnext := c_tnext c; c_evs := c_evs c; c_dt := c_dt c |}.
  Definition set_pkr (x : list (nat * option nat)) c : ctx V U :=
    {| c_caps := c_caps c; c_cut := c_cut c; c_err := c_err c; c_log := c_log c; c_rcv := c_rcv c; c_lrm := c_lrm c; c_hits := c_hits c; c_acts := c_acts c; c_pkr := x; c_pkv := c_pkv c; c_actp := c_actp c; c_tb := c_tb c; c_inws := c_inws c; c_rstk := c_rstk c; c_args := c_args c; c_prec := c_prec c; c_out := c_out c; c_ign := c_ign c; c_tids := c_tids c; c_tnext := c_tnext c; c_evs := c_evs c; c_dt := c_dt c |}.
  Definition set_pkv (x : list (nat * V)) c : ctx V U :=
    {| c_caps := c_caps c; c_cut := c_cut c; c_err := c_err c; c_log := c_log c; c_rcv := c_rcv c; c_lrm := c_lrm c; c_hits := c_hits c; c_acts := c_acts c; c_pkr := c_pkr c; c_pkv := x; c_actp := c_actp c; c_tb := c_tb c; c_inws := c_inws c; c_rstk := c_rstk c; c_args := c_args c; c_prec := c_prec c; c_out := c_out c; c_ign := c_ign c; c_tids := c_tids c; c_tnext := c_tnext c; c_evs := c_evs c; c_dt := c_dt c |}.
  Definition set_actp (x : list (rid * nat)) c : ctx V U :=
    {| c_caps := c_caps c; c_cut := c_cut c; c_err := c_err c; c_log := c_log c; c_rcv := c_rcv c; c_lrm := c_lrm c; c_hits := c_hits c; c_acts := c_acts c; c_pkr := c_pkr c; c_pkv := c_pkv c; c_actp := x; c_tb := c_tb c; c_inws := c_inws c; c_rstk := c_rstk c; c_args := c_args c; c_prec := c_prec c; c_out := c_out c; c_ign := c_ign c; c_tids := c_tids c; c_tnext := c_tnext c; c_evs := c_evs c; c_dt := c_dt c |}.
  Definition set_tb (x : nat) c : ctx V U :=
    {| c_caps := c_caps c; c_cut := c_cut c; c_err := c_err c; c_log := c_log c; c_rcv := c_rcv c; c_lrm := c_lrm c; c_hits := c_hits c; c_acts := c_acts c; c_pkr := c_pkr c; c_pkv := c_pkv c; c_actp := c_actp c; c_tb := x; c_inws := c_inws c; c_rstk := c_rstk c; c_args := c_args c; c_prec := c_prec c; c_out := c_out c; c_ign := c_ign c; c_tids := c_tids c; c_tnext := c_tnext c; c_evs := c_evs c; c_dt := c_dt c |}.
  Definition set_inws (x : bool) c : ctx V U :=
    {| c_caps := c_caps c; c_cut := c_cut c; c_err := c_err c; c_log := c_log c; c_rcv := c_rcv c; c_lrm := c_lrm c; c_hits := c_hits c; c_acts := c_acts c; c_pkr := c_pkr c; c_pkv := c_pkv c; c_actp := c_actp c; c_tb := c_tb c; c_inws := x; c_rstk := c_rstk c; c_args := c_args c; c_prec := c_prec c; c_out := c_out c; c_ign := c_ign c; c_tids := c_tids c; c_tnext := c_tnext c; c_evs := c_evs c; c_dt := c_dt c |}.
  Definition set_rstk (x : list rid) c : ctx V U :=
    {| c_caps := c_caps c; c_cut := c_cut c; c_err := c_err c; c_log := c_log c; c_rcv := c_rcv c; c_lrm := c_lrm c; c_hits := c_hits c; c_acts := c_acts c; c_pkr := c_pkr c; c_pkv := c_pkv c; c_actp := c_actp c; c_tb := c_tb c; c_inws := c_inws c; c_rstk := x; c_args := c_args c; c_prec := c_prec c; c_out := c_out c; c_ign := c_ign c; c_tids := c_tids c; c_tnext := c_tnext c; c_evs := c_evs c; c_dt := c_dt c |}.
  Definition set_args (x : list (list ope)) c : ctx V U :=
    {| c_caps := c_caps c; c_cut := c_cut c; c_err := c_err c; c_log := c_log c; c_rcv := c_rcv c; c_lrm := c_lrm c; c_hits := c_hits c; c_acts := c_acts c; c_pkr := c_pkr c; c_pkv := c_pkv c; c_actp := c_actp c; c_tb := c_tb c; c_inws := c_inws c; c_rstk := c_rstk c; c_args := x; c_prec := c_prec c; c_out := c_out c; c_ign := c_ign c; c_tids := c_tids c; c_tnext := c_tnext c; c_evs := c_evs c; c_dt := c_dt c |}.
  Definition set_prec (x : list (rid * bytes)) c : ctx V U :=
    {| c_caps := c_caps c; c_cut := c_cut c; c_err := c_err c; c_log := c_log c; c_rcv := c_rcv c; c_lrm := c_lrm c; c_hits := c_hits c; c_acts := c_acts c; c_pkr := c_pkr c; c_pkv := c_pkv c; c_actp := c_actp c; c_tb := c_tb c; c_inws := c_inws c; c_rstk := c_rstk c; c_args := c_args c; c_prec := x; c_out := c_out c; c_ign := c_ign c; c_tids := c_tids c; c_tnext := c_tnext c; c_evs := c_evs c; c_dt := c_dt c |}.
  Definition set_out (x : list report) c : ctx V U :=
    {| c_caps := c_caps c; c_cut := c_cut c; c_err := c_err c; c_log := c_log c; c_rcv := c_rcv c; c_lrm := c_lrm c; c_hits := c_hits c; c_acts := c_acts c; c_pkr := c_pkr c; c_pkv := c_pkv c; c_actp := c_actp c; c_tb := c_tb c; c_inws := c_inws c; c_rstk := c_rstk c; c_args := c_args c; c_prec := c_prec c; c_out := x; c_ign := c_ign c; c_tids := c_tids c; c_tnext := c_tnext c; c_evs := c_evs c; c_dt := c_dt c |}.
  Definition set_ign (x : bool) c : ctx V U :=
    {| c_caps := c_caps c; c_cut := c_cut c; c_err := c_err c; c_log := c_log c; c_rcv := c_rcv c; c_lrm := c_lrm c; c_hits := c_hits c; c_acts := c_acts c; c_pkr := c_pkr c; c_pkv := c_pkv c; c_actp := c_actp c; c_tb := c_tb c; c_inws := c_inws c; c_rstk := c_rstk c; c_args := c_args c; c_prec := c_prec c; c_out := c_out c; c_ign := x; c_tids := c_tids c; c_tnext := c_tnext c; c_evs := c_evs c; c_dt := c_dt c |}.
  Definition set_tids (x : list nat) c : ctx V U :=
    {| c_caps := c_caps c; c_cut := c_cut c; c_err := c_err c; c_log := c_log c; c_rcv := c_rcv c; c_lrm := c_lrm c; c_hits := c_hits c; c_acts := c_acts c; c_pkr := c_pkr c; c_pkv := c_pkv c; c_actp := c_actp c; c_tb := c_tb c; c_inws := c_inws c; c_rstk := c_rstk c; c_args := c_args c; c_prec := c_prec c; c_out := c_out c; c_ign := c_ign c; c_tids := x; c_tnext := c_tnext c; c_evs := c_evs c; c_dt := c_dt c |}.
  Definition set_tnext (x : nat) c : ctx V U :=
    {| c_caps := c_caps c; c_cut := c_cut c; c_err := c_err c; c_log := c_log c; c_rcv := c_rcv c; c_lrm := c_lrm c; c_hits := c_hits c; c_acts := c_acts c; c_pkr := c_pkr c; c_pkv := c_pkv c; c_actp := c_actp c; c_tb := c_tb c; c_inws := c_inws c; c_rstk := c_rstk c; c_args := c_args c; c_prec := c_prec c; c_out := c_out c; c_ign := c_ign c; c_tids := c_tids c; c_tnext := x; c_evs := c_evs c; c_dt := c_dt c |}.
  Definition set_evs (x : list event) c : ctx V U :=
    {| c_caps := c_caps c; c_cut := c_cut c; c_err := c_err c; c_log := c_log c; c_rcv := c_rcv c; c_lrm := c_lrm c; c_hits := c_hits c; c_acts := c_acts c; c_pkr := c_pkr c; c_pkv := c_pkv c; c_actp := c_actp c; c_tb := c_tb c; c_inws := c_inws c; c_rstk := c_rstk c; c_args := c_args c; c_prec := c_prec c; c_out := c_out c; c_ign := c_ign c; c_tids := c_tids c; c_tnext := c_tnext c; c_evs := x; c_dt := c_dt c |}.
  Definition set_dt (x : U) c : ctx V U :=
    {| c_caps := c_caps c; c_cut := c_cut c; c_err := c_err c; c_log := c_log c; c_rcv := c_rcv c; c_lrm := c_lrm c; c_hits := c_hits c; c_acts := c_acts c; c_pkr := c_pkr c; c_pkv := c_pkv c; c_actp := c_actp c; c_tb := c_tb c; c_inws := c_inws c; c_rstk := c_rstk c; c_args := c_args c; c_prec := c_prec c; c_out := c_out c; c_ign := c_ign c; c_tids := c_tids c; c_tnext := c_tnext c; c_evs := c_evs c; c_dt := x |}.
End Setters.


(** Fresh context (constructor 1157-1197) with user data [dt]. *)
Definition ctx_new {V U} (log : bool) (dt : U) : ctx V U :=
  {| c_caps := []; c_cut := []; c_err := err_new; c_log := log; c_rcv := false; c_lrm := []; c_hits := []; c_acts := []; c_pkr := []; c_pkv := []; c_actp := []; c_tb := 0; c_inws := false; c_rstk := []; c_args := [[]]; c_prec := []; c_out := []; c_ign := false; c_tids := []; c_tnext := 0; c_evs := []; c_dt := dt |}.
