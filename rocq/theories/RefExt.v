(** * The reference semantics does not look at packrat, tracing, logging and
    recognizer settings. *)
From Verif Require Import Base BaseLemmas Utf8 Escape TrieM LineInfo Ope Ctx ErrLog Engine Top RefSem RefMono Refine TopRef.

Section RefExt.
  Context {V U : Type}.
  Implicit Types (E : env V U).

  (** Forget every setting the meaning of a grammar does not depend on. *)
  Definition forget E : env V U :=
    {| e_g := e_g E; e_input := e_input E; e_ws := e_ws E; e_word := e_word E; e_packrat := false;
       e_slot := fun r => Some r; e_cached := 0; e_has_cut := true; e_tracer := false;
       e_verbose := false; e_need_rules := false; e_recog := false; e_u0 := e_u0 E;
       e_action := e_action E; e_pred := e_pred E; e_enter := fun _ => None;
       e_leave := e_leave E; e_user := fun _ _ _ vs u => (None, vs, u) |}.
  Lemma sub_antisym {A} (o o' : option A) : sub_of o o' -> sub_of o' o -> o = o'.
  Proof. intros [->| ->] [H|H]; auto. Qed.
  Lemma climb_forget E run tok atom binop info rl fuel : forall mn pos i vs,
    ref_climb fuel E run tok atom binop info rl mn pos i vs = ref_climb fuel (forget E) run tok atom binop info rl mn pos i vs.
  Proof.
    induction fuel as [|fuel IH]; intros mn pos i vs; cbn [ref_climb]; change (inlen (forget E)) with (inlen E); [reflexivity|].
    destruct (_ <? _); [|reflexivity]. destruct (run binop (pos + i) sv_new) as [[[n ov]|]|]; [|reflexivity..]. cbn [obind].
    destruct (tok (pos + i)) as [t|]; [|reflexivity]. cbn [obind]. destruct (binfo_find info t) as [[level la]|]; [|reflexivity].
    destruct (level <? mn); [reflexivity|]. destruct (hd_error (v_vals ov)); [|reflexivity]. cbn [obind].
    destruct (run atom _ _) as [[[n2 va]|]|]; [|reflexivity..]. cbn [obind]. rewrite <- IH.
    destruct (ref_climb fuel E run tok atom binop info rl _ _ _ _) as [[[n3 ve]|]|]; [|reflexivity..]. cbn [obind].
    destruct (hd_error (v_vals ve)); [|reflexivity]. cbn [obind]. rewrite <- IH. reflexivity.
  Qed.
  Lemma ref_forget k : forall E sd fr m o pos vs, ref k E sd fr m o pos vs = ref k (forget E) sd fr m o pos vs.
  Proof.
    induction k as [|k IH]; intros E sd fr m o pos vs; [reflexivity|]. cbn [ref].
    transitivity (ref_core k (fun E' => ref k (forget E')) E sd fr m o pos vs).
    - apply sub_antisym; apply s_core; auto; intros; right; (apply IH || (symmetry; apply IH)).
    - destruct o; try reflexivity. cbn [ref_core]. unfold ref_pre.
      change (ref k (forget (forget E))) with (ref k (forget E)).
      destruct (ref k (forget E) sd fr m o1 pos vs) as [[[n va]|]|]; [|reflexivity..]. cbn [obind]. rewrite climb_forget. reflexivity.
  Qed.
  Lemma ref_same k E1 E2 sd fr m o pos vs : forget E1 = forget E2 -> ref k E1 sd fr m o pos vs = ref k E2 sd fr m o pos vs.
  Proof. intros H. rewrite (ref_forget k E1), (ref_forget k E2), H. reflexivity. Qed.
  Lemma forget_ws E1 E2 : forget E1 = forget E2 -> e_ws E1 = e_ws E2.
  Proof. intros H. exact (f_equal e_ws H). Qed.
  Lemma ref_top_same k E1 E2 start : forget E1 = forget E2 -> ref_top k E1 start = ref_top k E2 start.
  Proof.
    intros H. unfold ref_top. rewrite (forget_ws _ _ H).
    assert (Hw : match e_ws E2 with None => Some (Some (0, sv_new)) | Some w => ref k E1 None no_frame m_top w 0 sv_new end
               = match e_ws E2 with None => Some (Some (0, sv_new)) | Some w => ref k E2 None no_frame m_top w 0 sv_new end).
    { destruct (e_ws E2); [|reflexivity]. now apply ref_same. }
    rewrite Hw. destruct (match e_ws E2 with None => Some (Some (0, sv_new)) | Some w => ref k E2 None no_frame m_top w 0 sv_new end) as [[[i vs]|]|]; try reflexivity. cbn [obind].
    now rewrite (ref_same k E1 E2 _ _ _ (Hld start) i vs H).
  Qed.
End RefExt.
