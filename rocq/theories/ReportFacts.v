(** * Error reports (C30): the unexpected token, its position, the custom message. *)
From Verif Require Import Base BaseLemmas Utf8 Utf8Spec Utf8Proofs Escape TrieM LineInfo LineSpec LineProofs Ope Ctx ErrLog Engine EngineLemmas Top Frame Scope Bounds TopFacts TopRef ReportSpec.

(** ** The unexpected token *)
Lemma token_byteP c : ispunct c || isspace c = false <-> token_byte c.
Proof.
  unfold ispunct, isspace, token_byte, punct_byte, space_byte, letter_or_digit. cbv zeta.
  rewrite !orb_false_iff, !andb_false_iff, !N.leb_gt, !N.eqb_neq. lia.
Qed.
Lemma token_runP s : exists rest, s = firstn (token_run s) s ++ rest /\ Forall token_byte (firstn (token_run s) s)
  /\ (forall b r, rest = b :: r -> ~ token_byte b).
Proof.
  induction s as [|c s (rest & H1 & H2 & H3)]; cbn [token_run].
  - exists []. cbn. split; [reflexivity|]. split; [constructor|discriminate].
  - destruct (ispunct c || isspace c) eqn:Hc.
    + exists (c :: s). cbn. split; [reflexivity|]. split; [constructor|]. intros b r Hb. inv Hb. intros Ht. apply token_byteP in Ht. congruence.
    + exists rest. cbn [firstn app]. rewrite <- H1. split; [reflexivity|]. split; [|exact H3]. constructor; [now apply token_byteP|exact H2].
Qed.
Lemma clip_bound s : forall count i j x, i <= List.length s -> j <= i -> clip count s i j = Ok x -> j <= x <= i /\ x <= j + 4 * count.
Proof.
  induction count as [|n IH]; intros i j x Hi Hj H; cbn [clip] in H; [inv H; lia|].
  destruct (j <? i) eqn:Hji; [|inv H; lia]. apply Nat.ltb_lt in Hji.
  destruct (decode_safe (from s j) (i - j)) as (r & _ & _ & Hl & Hb); [rewrite from_length; lia|]. rewrite Hl in H. cbn [bind] in H.
  apply IH in H; [|lia|]; destruct r as [[k cp]|]; try (destruct (Hb k cp eq_refl) as [Hk _]); lia.
Qed.
Lemma token_any s pos tok : heuristic_error_token s pos = Ok tok ->
  exists raw, token_bytes s pos raw /\ tok = escape_characters raw.
Proof.
  unfold heuristic_error_token, from. destruct (skipn pos s) as [|c rest] eqn:Hf; intros H.
  { inv H. exists []. split; [|reflexivity]. split; [exists []; now rewrite Hf|]. split; [right; constructor|cbn; lia]. }
  cbv zeta in H. set (i := if ispunct c || isspace c then 1 else S (token_run rest)) in *.
  assert (Hi : i <= List.length (c :: rest)). { unfold i. pose proof (token_run_len rest). cbn [List.length]. destruct (_ || _); lia. }
  binv H. apply clip_bound in Hm; [|exact Hi|lia]. inv H. exists (firstn a (c :: rest)). split; [|reflexivity].
  split; [exists (skipn a (c :: rest)); rewrite Hf; now rewrite firstn_skipn|]. split; [|rewrite firstn_length; lia].
  unfold i in *. destruct (ispunct c || isspace c) eqn:Hc.
  - destruct a as [|[|a]]; [right; constructor| |lia]. left. exists c. split; [reflexivity|]. intros Ht. apply token_byteP in Ht. congruence.
  - right. destruct a as [|a]; [constructor|]. cbn [firstn]. constructor; [now apply token_byteP|].
    destruct (token_runP rest) as (_ & _ & H2 & _).
    assert (Ha : a <= token_run rest) by lia. clear -H2 Ha.
    replace (firstn a rest) with (firstn a (firstn (token_run rest) rest)) by (rewrite firstn_firstn; f_equal; lia).
    apply Forall_forall. intros x Hx. rewrite Forall_forall in H2. apply H2.
    rewrite <- (firstn_skipn a). apply in_or_app. now left.
Qed.

Notation enc cps := (List.concat (map encode_codepoint cps)).
Lemma enc_valid cps : Forall scalar cps -> utf8_of cps (enc cps).
Proof.
  intros H. split; [exact H|]. induction H as [|cp cps Hc H IH]; [reflexivity|]. cbn [map List.concat]. now rewrite map_app, encode_rfc, IH.
Qed.
Lemma enc_app a b : enc (a ++ b) = enc a ++ enc b.
Proof. now rewrite map_app, concat_app. Qed.
Lemma enc_token cp : scalar cp -> Forall token_byte (encode_codepoint cp) \/ exists b, encode_codepoint cp = [b] /\ ~ token_byte b.
Proof.
  intros H. destruct (N.le_gt_cases cp 0x7F) as [Hc|Hc].
  - pose proof (encode_rfc cp H) as He. unfold rfc3629 in He. apply N.leb_le in Hc. rewrite Hc in He.
    destruct (encode_codepoint cp) as [|b [|]]; inv He.
    destruct (ispunct b || isspace b) eqn:Ht; [right|left].
    + exists b. split; [reflexivity|]. intros Hx. apply token_byteP in Hx. congruence.
    + constructor; [now apply token_byteP|constructor].
  - left. assert (Hall : Forall (fun b => (128 <= bN b)%N) (encode_codepoint cp)).
    { pose proof (encode_rfc cp H) as He. unfold rfc3629 in He. replace (cp <=? 127)%N with false in He by (symmetry; now apply N.leb_gt).
      rewrite Forall_forall. intros x Hx. apply (in_map bN) in Hx. rewrite He in Hx.
      destruct (cp <=? 2047)%N; [|destruct (cp <=? 65535)%N]; cbn [In] in Hx; lia. }
    eapply Forall_impl; [|exact Hall]. intros b Hb. unfold token_byte, space_byte, punct_byte. cbv beta in Hb. lia.
Qed.
Lemma token_run_app l rest : Forall token_byte l -> token_run (l ++ rest) = List.length l + token_run rest.
Proof.
  induction 1 as [|b l Hb Hl IH]; [reflexivity|]. cbn [app token_run List.length]. apply token_byteP in Hb. now rewrite Hb, IH.
Qed.
Lemma enc_run cps : Forall scalar cps -> exists a b, cps = a ++ b /\ token_run (enc cps) = List.length (enc a).
Proof.
  induction 1 as [|cp cps Hc H (a & b & -> & IH)]; [exists [], []; auto|]. destruct (enc_token cp Hc) as [Ht|(x & Hx & Ht)].
  - exists (cp :: a), b. split; [reflexivity|]. cbn [map List.concat]. rewrite token_run_app by exact Ht. rewrite app_length. lia.
  - exists [], (cp :: a ++ b). split; [reflexivity|]. cbn [map List.concat]. rewrite Hx. cbn.
    destruct (ispunct x || isspace x) eqn:Hp; [reflexivity|]. apply token_byteP in Hp. contradiction.
Qed.
Lemma clip_enc tail : forall count b a, Forall scalar b -> 
  clip count (enc a ++ enc b ++ tail) (List.length (enc a ++ enc b)) (List.length (enc a)) = Ok (List.length (enc (a ++ firstn count b))).
Proof.
  induction count as [|n IH]; intros b a Hb; cbn [clip firstn]; [now rewrite app_nil_r|].
  destruct b as [|cp b]; cbn [firstn].
  - cbn [map List.concat app]. rewrite !app_nil_r. now rewrite Nat.ltb_irrefl.
  - inv Hb. match goal with H : scalar cp, K : Forall scalar b |- _ => rename H into Hc; rename K into Hb' end.
    assert (Hl : 0 < List.length (encode_codepoint cp)) by (destruct (encode_shape cp Hc) as (b0 & tl & -> & _); cbn; lia).
    replace (_ <? _) with true by (symmetry; apply Nat.ltb_lt; rewrite app_length; cbn [map List.concat]; rewrite app_length; lia).
    unfold from. rewrite skipn_app, skipn_all, Nat.sub_diag. cbn [app skipn map List.concat].
    rewrite <- !app_assoc. rewrite (app_length (enc a)).
    replace (List.length (enc a) + List.length (encode_codepoint cp ++ enc b) - List.length (enc a)) with (List.length (encode_codepoint cp ++ enc b)) by lia.
    destruct (encode_decode cp (enc b ++ tail) (List.length (encode_codepoint cp ++ enc b)) Hc) as [_ Hd]; [rewrite app_length; lia|].
    rewrite Hd. cbn [bind].
    specialize (IH b (a ++ [cp]) Hb'). rewrite !enc_app in IH. cbn [map List.concat] in IH. rewrite app_nil_r in IH. rewrite <- !app_assoc in IH.
    etransitivity; [|etransitivity; [exact IH|]].
    + f_equal; rewrite !app_length; lia.
    + rewrite !enc_app. cbn [map List.concat]. now rewrite ?app_nil_r, ?app_assoc.
Qed.
Lemma token_valid s pos tok : valid_utf8 (skipn pos s) -> skipn pos s <> [] -> heuristic_error_token s pos = Ok tok ->
  exists run raw, token_run_at s pos run /\ first_32 run raw /\ tok = escape_characters raw /\ raw <> [].
Proof.
  intros [cps Hu] Hne. destruct (proj1 Hu) as [|cp cps Hcp Hcps] eqn:Hsc; clear Hsc.
  { destruct Hu as [_ Hu]. cbn in Hu. apply map_eq_nil in Hu. contradiction. }
  apply utf8_of_encoded in Hu. unfold heuristic_error_token, from. rewrite Hu. cbn [map List.concat].
  assert (Hsc : Forall scalar (cp :: cps)) by now constructor.
  destruct (encode_shape cp Hcp) as (b0 & tl & He & _). rewrite He. cbn [app]. cbv zeta. intros H.
  destruct (ispunct b0 || isspace b0) eqn:Hp.
  - (* one byte *)
    assert (Htl : tl = []).
    { destruct (enc_token cp Hcp) as [Ht|(x & Hx & _)]; [|congruence]. rewrite He in Ht. inversion Ht as [|? ? Hb0 _]. apply token_byteP in Hb0. congruence. }
    subst tl. cbn [app] in *. binv H. pose proof (clip_enc (enc cps) 32 [cp] [] ltac:(auto)) as X. cbn [map List.concat app firstn] in X.
    rewrite app_nil_r, He in X. cbn [app List.length] in X. rewrite X in Hm. inv Hm. inv H.
    exists [b0], [b0]. split; [|split; [|split; [reflexivity|discriminate]]].
    + exists (enc cps). rewrite Hu. cbn [map List.concat]. rewrite He. split; [reflexivity|]. left. exists b0. split; [reflexivity|]. intros Ht. apply token_byteP in Ht. congruence.
    + exists [cp], []. rewrite app_nil_r. assert (Hv : utf8_of [cp] [b0]). { rewrite <- He. rewrite <- (app_nil_r (encode_codepoint cp)). apply (enc_valid [cp]). auto. }
      split; [exact Hv|]. split; [exact Hv|]. right. cbn. split; [lia|reflexivity].
  - destruct (enc_run (cp :: cps) Hsc) as (a & b & Hab & Hrun). cbn [map List.concat] in Hrun. rewrite He in Hrun. cbn [app token_run] in Hrun. rewrite Hp in Hrun.
    rewrite Hrun in H. assert (Ha : Forall scalar a /\ Forall scalar b) by (rewrite Hab in Hsc; now apply Forall_app in Hsc).
    destruct Ha as [Ha Hb]. assert (Htxt : b0 :: tl ++ enc cps = enc a ++ enc b).
    { rewrite <- enc_app, <- Hab. cbn [map List.concat]. now rewrite He. }
    rewrite Htxt in H. pose proof (clip_enc (enc b) 32 a [] Ha) as X. cbn [map List.concat app List.length] in X. rewrite X in H. cbn [bind] in H.
    assert (Hf : firstn (List.length (enc (firstn 32 a))) (enc a ++ enc b) = enc (firstn 32 a)).
    { rewrite <- (firstn_skipn 32 a) at 2. rewrite enc_app, <- app_assoc. now rewrite firstn_app, firstn_all, Nat.sub_diag, firstn_O, app_nil_r. }
    rewrite Hf in H. inv H. exists (enc a), (enc (firstn 32 a)). split; [|split; [|split; [reflexivity|]]].
    + exists (enc b). rewrite Hu, Hab, enc_app. split; [reflexivity|]. right.
      destruct (token_runP (enc a ++ enc b)) as (rest & R1 & R2 & R3).
      assert (Hr : token_run (enc a ++ enc b) = List.length (enc a)).
      { rewrite <- Htxt. cbn [token_run]. rewrite Hp. exact Hrun. }
      rewrite Hr in R1, R2. rewrite firstn_app, firstn_all, Nat.sub_diag, firstn_O, app_nil_r in R1, R2.
      apply app_inv_head in R1. subst rest. split; [|auto]. intros Hz. rewrite Hz in Hrun. discriminate Hrun.
    + exists (firstn 32 a), (skipn 32 a). rewrite firstn_skipn. split; [now apply enc_valid|]. split.
      { apply enc_valid. rewrite <- (firstn_skipn 32 a) in Ha. apply Forall_app in Ha as [Ha1 _]. exact Ha1. }
      rewrite firstn_length. destruct (Nat.le_gt_cases 32 (List.length a)); [left; lia|right]. split; [lia|]. now apply skipn_all2; lia.
    + destruct a as [|cp' a]; [discriminate Hrun|]. inv Hab. cbn [firstn map List.concat]. rewrite He. discriminate.
Qed.

(** ** The custom message *)
Lemma replace_skip pat repl : forall k s, k <= List.length s ->
  replace_all_loop k s pat repl = replace_all_loop 0 (skipn k s) pat repl.
Proof.
  induction k as [|k IH]; intros s H; [reflexivity|]. destruct s as [|c s]; [reflexivity|]. cbn [replace_all_loop skipn]. apply IH. cbn in H. lia.
Qed.
Lemma replace_hit pat repl s : pat <> [] -> replace_all (pat ++ s) pat repl = repl ++ replace_all s pat repl.
Proof.
  intros Hp. unfold replace_all. destruct pat as [|c pat]; [congruence|]. cbn [app replace_all_loop].
  assert (H : bytes_eqb (firstn (List.length (c :: pat)) (c :: pat ++ s)) (c :: pat) = true).
  { change (c :: pat ++ s) with ((c :: pat) ++ s). rewrite firstn_app, firstn_all, Nat.sub_diag, firstn_O, app_nil_r. now apply bytes_eqb_eq. }
  rewrite H. f_equal. cbn [List.length]. rewrite Nat.sub_0_r || rewrite Nat.sub_succ, Nat.sub_0_r. rewrite replace_skip by (rewrite app_length; lia).
  now rewrite skipn_app, skipn_all, Nat.sub_diag.
Qed.
Lemma replace_miss pat repl c s : (forall r, c :: s <> pat ++ r) -> replace_all (c :: s) pat repl = c :: replace_all s pat repl.
Proof.
  intros H. unfold replace_all. cbn [replace_all_loop]. destruct (bytes_eqb _ pat) eqn:Hb; [|reflexivity].
  apply bytes_eqb_eq in Hb. exfalso. apply (H (skipn (List.length pat) (c :: s))). rewrite <- Hb at 1. now rewrite firstn_skipn.
Qed.
Lemma replace_all_spec pat repl : pat <> [] -> forall s, replaced pat repl s (replace_all s pat repl).
Proof.
  intros Hp s. remember (List.length s) as n eqn:Hn. revert s Hn. induction n as [n IH] using lt_wf_ind. intros s ->.
  destruct s as [|c s]; [constructor|].
  destruct (bytes_eqb (firstn (List.length pat) (c :: s)) pat) eqn:Hb.
  - apply bytes_eqb_eq in Hb. assert (Hs : c :: s = pat ++ skipn (List.length pat) (c :: s)) by (rewrite <- Hb at 1; now rewrite firstn_skipn).
    rewrite Hs. rewrite replace_hit by exact Hp. apply rp_hit. eapply IH; [|reflexivity].
    rewrite skipn_length. destruct pat; [congruence|]. cbn. lia.
  - assert (Hm : forall r, c :: s <> pat ++ r).
    { intros r Hr. assert (X : bytes_eqb (firstn (List.length pat) (c :: s)) pat = true); [|congruence].
      apply bytes_eqb_eq. rewrite Hr, firstn_app, firstn_all, Nat.sub_diag, firstn_O. apply app_nil_r. }
    rewrite replace_miss by exact Hm. apply rp_miss; [exact Hm|]. eapply IH; [|reflexivity]. cbn. lia.
Qed.
Lemma replace_none c0 pat repl l s : ~ In c0 l -> replace_all (l ++ s) (c0 :: pat) repl = l ++ replace_all s (c0 :: pat) repl.
Proof.
  induction l as [|x l IH]; intros H; [reflexivity|]. cbn [app]. rewrite replace_miss.
  - rewrite IH; [reflexivity|]. intros Hy. apply H. now right.
  - intros r Hr. inv Hr. apply H. now left.
Qed.
Lemma message_filled tok ch msg : ~ In x25 tok -> (forall a b, msg <> a ++ x25 :: x25 :: b) ->
  filled_in tok ch msg (replace_all (replace_all msg (bs "%t") tok) (bs "%c") ch).
Proof.
  intros Ht. change (bs "%t") with [x25; x74]. change (bs "%c") with [x25; x63].
  remember (List.length msg) as n eqn:Hn. revert msg Hn. induction n as [n IH] using lt_wf_ind. intros s -> Hpp.
  destruct s as [|c s]; [constructor|].
  assert (Hs : forall a b, s <> a ++ x25 :: x25 :: b) by (intros a b ->; apply (Hpp (c :: a) b); reflexivity).
  destruct (Byte.byte_eq_dec c x25) as [->|Hc].
  - destruct s as [|d s]; [cbn; apply fi_miss; [intros r; split; discriminate|constructor]|].
    destruct (Byte.byte_eq_dec d x74) as [->|Hd]; [|destruct (Byte.byte_eq_dec d x63) as [->|Hd']].
    + change (x25 :: x74 :: s) with ([x25; x74] ++ s) at 2. rewrite replace_hit by discriminate.
      rewrite replace_none by exact Ht. apply fi_tok. eapply IH; [|reflexivity|].
      * cbn. lia.
      * intros a b ->. apply (Hs (x74 :: a) b). reflexivity.
    + rewrite (replace_miss [x25; x74]) by (intros r Hr; inv Hr). rewrite (replace_miss [x25; x74]) by (intros r Hr; inv Hr).
      match goal with |- context [replace_all (x25 :: x63 :: ?R) _ _] => change (x25 :: x63 :: R) with ([x25; x63] ++ R) end.
      rewrite replace_hit by discriminate. apply fi_chr. eapply IH; [|reflexivity|].
      * cbn. lia.
      * intros a b ->. apply (Hs (x63 :: a) b). reflexivity.
    + assert (Hdp : d <> x25) by (intros ->; apply (Hpp [] s); reflexivity).
      assert (X : filled_in tok ch (d :: s) (replace_all (replace_all (d :: s) [x25; x74] tok) [x25; x63] ch)).
      { eapply IH; [|reflexivity|exact Hs]. cbn. lia. }
      rewrite (replace_miss [x25; x74] tok x25) by (intros r Hr; inv Hr; congruence).
      rewrite (replace_miss [x25; x74] tok d) in * by (intros r Hr; inv Hr; congruence).
      rewrite (replace_miss [x25; x63] ch x25) by (intros r Hr; inv Hr; congruence).
      apply fi_miss; [|exact X]. intros r. split; intros Hr; inv Hr; congruence.
  - rewrite (replace_miss [x25; x74]) by (intros r Hr; inv Hr; congruence). rewrite (replace_miss [x25; x63]) by (intros r Hr; inv Hr; congruence).
    apply fi_miss; [intros r; split; intros Hr; inv Hr; congruence|]. eapply IH; [|reflexivity|exact Hs]. cbn. lia.
Qed.

(** ** Reports *)
Definition custom_text (msg tok txt : bytes) : Prop :=
  match tok with
  | [] => txt = msg
  | _ => exists n m, codepoint_length tok (List.length tok) = Ok n
      /\ replaced (bs "%t") tok msg m /\ replaced (bs "%c") (firstn n tok) m txt
  end.
Lemma output_log_report g s e e' rp : output_log g s e = Ok (e', Some rp) ->
  (ei_mpos e = Some (rp_position rp) \/ ei_mpos e = None /\ ei_pos e = Some (rp_position rp))
  /\ line_info s (rp_position rp) = Ok (rp_line rp, rp_col rp)
  /\ (heuristic_error_token s (rp_position rp) = Ok (rp_unexpected rp) \/ ei_mpos e = None /\ ei_exp e = [] /\ rp_unexpected rp = [])
  /\ (ei_mpos e <> None -> custom_text (ei_msg e) (rp_unexpected rp) (rp_text rp)).
Proof.
  unfold output_log. destruct (ei_mpos e) as [mp|] eqn:Em.
  - destruct (olt _ _); [|discriminate]. cbv zeta. intros H. binv H. rename Hm into Hli. binv H. rename Hm into Htok.
    match type of Htok with _ = Ok ?t => rename t into tok end. binv H.
    inv H. cbn. split; [now left|]. split; [exact Hli|]. split; [now left|]. intros _. unfold custom_text.
    destruct tok as [|b0 tok]; [inv Hm; reflexivity|]. binv Hm. inv Hm.
    match goal with H : codepoint_length _ _ = Ok ?k |- _ => exists k; eexists; split; [exact H|] end.
    split; apply replace_all_spec; discriminate.
  - destruct (ei_pos e) as [p|]; [|discriminate]. destruct (olt _ _); [|discriminate]. intros H. binv H. rename Hm into Hli. binv H.
    match goal with q : (bytes * list byte * bytes)%type |- _ => destruct q as [[txt tok] label] end. inv H. cbn.
    split; [right; auto|]. split; [exact Hli|]. split; [|congruence].
    destruct (ei_exp e) as [|x l]; [inv Hm; right; auto|]. left. binv Hm. rename Hm0 into Htok.
    match type of Hm with context [fold_left ?f ?l ?a] => destruct (fold_left f l a) as [[[[? ?] ?] ?] ?] end. inv Hm. exact Htok.
Qed.


Section Parser.
  Context {V U : Type}.
  Implicit Types (P : pobj V U).
  Lemma def_parse_reports fuel P input dt : wfE (mk_env P input) ->
    safe (fun r => in_input input r /\ Forall (report_from (p_g P) input) (rs_out r)) (def_parse fuel P input dt).
  Proof.
    intros HE. unfold def_parse. cbv zeta. set (E := mk_env P input) in *.
    assert (Hin : inlen E = List.length input) by reflexivity.
    assert (Hmk : forall ret len vs c, inb E c -> len <= List.length input ->
      in_input input (mk_result ret len vs c) /\ Forall (report_from (p_g P) input) (rs_out (mk_result (V:=V) ret len vs c))).
    { intros ret len vs c [A B C D F] Hl. split; [repeat split; cbn; auto; intros p Hp; rewrite <- Hin; auto|exact F]. }
    eapply safe_bind with (P := fun x => pos_ok E 0 (fst (fst x)) /\ inb E (snd x)).
    - destruct (p_ws P) as [w|].
      + eapply safe_bind; [apply parse_safe; auto; [lia|]|].
        * eapply inb_same; [apply (inb_new E (p_log P) dt)|reflexivity..].
        * intros [[r v] k] (A & B & C). cbn. split; [exact A|]. eapply inb_same; [exact B|reflexivity..].
      + split; [apply (pos_ok_zero E 0); lia|apply inb_new].
    - intros [[wl vs1] c1] [A B]. cbn in A, B. destruct wl as [i|]; [|apply Hmk; [assumption|lia]].
      specialize (A i eq_refl). cbn in A.
      eapply safe_bind; [apply parse_safe; auto|]. intros [[len vs2] c2] (A2 & B2 & _). cbn in A2, B2.
      destruct len as [k|]; [|apply Hmk; [assumption|lia]]. specialize (A2 k eq_refl).
      destruct (p_eoi P && (i + k <? List.length input)); apply Hmk; try assumption; try lia.
      destruct (olt _ _); [|assumption]. destruct B2 as [X1 X2 X3 X4 X5]. constructor; cbn; auto.
      intros p Hp. inv Hp. lia.
  Qed.
  Lemma parser_reports fuel P input dt b reps r : wfE (mk_env P input) ->
    parser_parse fuel P input dt = Ok (b, reps, r) -> Forall (report_from (p_g P) input) reps.
  Proof.
    intros HE H. unfold parser_parse in H. binv H. pose proof (def_parse_reports fuel P input dt HE) as Hd. rewrite Hm in Hd. cbn in Hd.
    destruct Hd as [Hin Hout]. binv H. inv H. destruct (_ && _).
    - binv Hm0. match goal with H : output_log _ _ _ = _ |- _ => rename H into Ho end. inv Hm0. apply Forall_app. split; [exact Hout|].
      match type of Ho with _ = Ok (?e', ?o) => destruct o as [rp|]; constructor; [|constructor] end.
      eexists _, _. split; [apply Hin|]. split; [apply Hin|]. exact Ho.
    - inv Hm0. exact Hout.
  Qed.

  (** Where a report points, and what it quotes. *)
  Theorem report_contents g s rp : report_from g s rp ->
    rp_position rp <= List.length s
    /\ line_info s (rp_position rp) = Ok (rp_line rp, rp_col rp)
    /\ exists raw, token_bytes s (rp_position rp) raw /\ (rp_unexpected rp = escape_characters raw \/ rp_unexpected rp = []).
  Proof.
    intros (e & e' & Hp & Hm & Ho). destruct (output_log_report _ _ _ _ _ Ho) as (H1 & H2 & H3 & _).
    split; [destruct H1 as [H1|[_ H1]]; auto|]. split; [exact H2|].
    destruct H3 as [H3|(_ & _ & H3)].
    - destruct (token_any _ _ _ H3) as (raw & A & B). exists raw. auto.
    - exists []. split; [|now right]. split; [exists (skipn (rp_position rp) s); reflexivity|]. split; [right; constructor|cbn; lia].
  Qed.
  Theorem report_valid g s rp : report_from g s rp -> valid_utf8 (skipn (rp_position rp) s) -> rp_unexpected rp <> [] ->
    exists run raw, token_run_at s (rp_position rp) run /\ first_32 run raw /\ rp_unexpected rp = escape_characters raw.
  Proof.
    intros (e & e' & Hp & Hm & Ho) Hv Hne. destruct (output_log_report _ _ _ _ _ Ho) as (H1 & H2 & H3 & _).
    destruct H3 as [H3|(_ & _ & H3)]; [|congruence].
    destruct (skipn (rp_position rp) s) as [|b0 l] eqn:Hs.
    - unfold heuristic_error_token, from in H3. rewrite Hs in H3. inv H3. congruence.
    - destruct (token_valid s (rp_position rp) (rp_unexpected rp)) as (run & raw & A & B & C & D); [rewrite Hs; exact Hv|rewrite Hs; discriminate|exact H3|].
      exists run, raw. auto.
  Qed.
End Parser.
