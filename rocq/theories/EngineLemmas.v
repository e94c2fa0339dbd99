(** * Proof support for the engine: inversion of [let*], setters, lists. *)
From Verif Require Import Base BaseLemmas Utf8 Escape TrieM LineInfo Ope Ctx ErrLog Engine.

Lemma bind_Ok : forall {A B} (m : outcome A) (f : A -> outcome B) b,
  bind m f = Ok b -> exists a, m = Ok a /\ f a = Ok b.
Proof. intros A B [a| |ft|m] f b H; cbn in H; try discriminate. eauto. Qed.

Ltac csimpl :=
  cbn [c_caps c_cut c_err c_log c_rcv c_lrm c_hits c_acts c_pkr c_pkv c_actp c_tb c_inws
       c_rstk c_args c_prec c_out c_ign c_tids c_tnext c_evs c_dt
       set_caps set_cut set_err set_log set_rcv set_lrm set_hits set_acts set_pkr set_pkv
       set_actp set_tb set_inws set_rstk set_args set_prec set_out set_ign set_tids set_tnext
       set_evs set_dt v_vals v_tags v_toks v_sv v_cc v_ch v_name
       set_vals set_choice set_toks set_span set_name push_val push_tok fst snd tl List.length] in *.

(** Take apart the hypothesis [H : bind m f = Ok _]; the value of [m] is split
    when it is a pair. *)
Ltac binv H :=
  let a := fresh "a" in let Hm := fresh "Hm" in
  apply bind_Ok in H; destruct H as (a & Hm & H);
  try (match type of a with
       | (_ * _ * _)%type => let r := fresh "r" in let v := fresh "v" in let k := fresh "k" in
                             destruct a as [[r v] k]
       | (_ * _)%type => let r := fresh "r" in let v := fresh "v" in destruct a as [r v]
       end); cbn [fst snd] in H.

Ltac inv H := inversion H; subst; clear H.

Definition prefix {A} (a b : list A) : Prop := exists t, b = a ++ t.
Lemma prefix_refl {A} (a : list A) : prefix a a.
Proof. exists []. now rewrite app_nil_r. Qed.
Lemma prefix_trans {A} (a b c : list A) : prefix a b -> prefix b c -> prefix a c.
Proof. intros [t ->] [u ->]. exists (t ++ u). now rewrite app_assoc. Qed.
Lemma prefix_app {A} (a t : list A) : prefix a (a ++ t).
Proof. now exists t. Qed.
Lemma resize_prefix {A} (d : A) (a b : list A) : prefix a b -> resize d (List.length a) b = a.
Proof.
  intros [t ->]. unfold resize.
  rewrite firstn_app, firstn_all, Nat.sub_diag. cbn [firstn]. rewrite app_nil_r.
  rewrite app_length. replace (List.length a - (List.length a + List.length t)) with 0 by lia.
  cbn. now rewrite app_nil_r.
Qed.
Lemma resize_self {A} (d : A) (a : list A) : resize d (List.length a) a = a.
Proof. apply resize_prefix, prefix_refl. Qed.

(** The number of elements after [resize]. *)
Lemma resize_length {A} (d : A) n (l : list A) : List.length (resize d n l) = n.
Proof. unfold resize. rewrite app_length, firstn_length, repeat_length. lia. Qed.
