From Verif Require Import Base BaseLemmas Escape RangeSpec.
Local Open Scope N_scope.

Lemma sorted_weaken rs : forall a b, a <= b -> sorted_from b rs -> sorted_from a rs.
Proof. destruct rs as [|[lo hi] rs]; cbn; intros a b H; [auto|]. intros (A & B & C & D). repeat split; auto. lia. Qed.

Lemma sorted_low rs : forall lo0 cp, sorted_from lo0 rs -> accepts rs cp -> lo0 <= cp.
Proof.
  induction rs as [|[lo hi] rs IH]; intros lo0 cp Hs (l & h & Hin & H1 & H2); [contradiction|].
  cbn in Hs. destruct Hs as (A & B & C & D). destruct Hin as [E|Hin].
  - injection E as -> ->. lia.
  - assert (hi + 1 <= cp); [|lia]. apply (IH (hi + 1) cp D). exists l, h. auto.
Qed.

Lemma complement_loop_spec rs : forall next cp, sorted_from next rs -> next <= cp -> cp <= 0x10FFFF ->
  accepts (complement_loop next rs) cp <-> ~ accepts rs cp.
Proof.
  induction rs as [|[lo hi] rs IH]; intros next cp Hs Hn Hc; cbn [complement_loop].
  - assert (Hnx : (next <=? 0x10FFFF) = true) by (apply N.leb_le; lia). rewrite Hnx.
    split.
    + intros _ (l & h & Hin & _). destruct Hin.
    + intros _. exists next, 0x10FFFF. split; [left; reflexivity|]. lia.
  - cbn in Hs. destruct Hs as (A & B & C & D).
    assert (E : (hi + 1) mod 4294967296 = hi + 1) by (apply N.mod_small; lia). rewrite E.
    assert (Hr : forall cp, accepts (complement_loop (hi + 1) rs) cp -> hi + 1 <= cp).
    { clear - D. revert D. generalize (hi + 1). induction rs as [|[l h] rs IHr]; intros n D cp; cbn [complement_loop].
      - destruct (n <=? 0x10FFFF) eqn:E; intros (a & b & Hin & H1 & H2); [|destruct Hin].
        destruct Hin as [Hin|[]]. injection Hin as <- <-. exact H1.
      - cbn in D. destruct D as (D1 & D2 & D3 & D4).
        assert (Em : (h + 1) mod 4294967296 = h + 1) by (apply N.mod_small; lia). rewrite Em.
        destruct (n <? l) eqn:E.
        + intros (a & b & Hin & H1 & H2). destruct Hin as [Hin|Hin].
          * injection Hin as <- <-. exact H1.
          * assert (h + 1 <= cp); [|lia]. apply (IHr (h + 1) D4). exists a, b. auto.
        + intro H. assert (h + 1 <= cp) by (apply (IHr (h + 1) D4); exact H). lia. }
    destruct (next <? lo) eqn:El; [apply N.ltb_lt in El|apply N.ltb_ge in El].
    + split.
      * intros (l & h & Hin & H1 & H2) Hacc.
        destruct Hin as [Hin|Hin].
        -- injection Hin as <- <-.
           destruct Hacc as (l' & h' & [Hin'|Hin'] & H1' & H2').
           ++ injection Hin' as <- <-. lia.
           ++ assert (hi + 1 <= cp) by (apply (sorted_low rs (hi + 1) cp D); exists l', h'; auto). lia.
        -- assert (Hcp : hi + 1 <= cp) by (apply Hr; exists l, h; auto).
           apply (IH (hi + 1) cp D Hcp Hc); [exists l, h; auto|].
           destruct Hacc as (l' & h' & [Hin'|Hin'] & H1' & H2'); [injection Hin' as <- <-; lia|].
           exists l', h'. auto.
      * intro Hno. destruct (N.lt_ge_cases cp lo) as [L|G].
        -- exists next, (lo - 1). split; [left; reflexivity|]. lia.
        -- assert (Hcp : hi + 1 <= cp).
           { destruct (N.le_gt_cases cp hi) as [L2|G2]; [|lia].
             exfalso. apply Hno. exists lo, hi. split; [left; reflexivity|]. lia. }
           destruct (proj2 (IH (hi + 1) cp D Hcp Hc)) as (l & h & Hin & H).
           { intros (l' & h' & Hin' & H'). apply Hno. exists l', h'. split; [right; exact Hin'|exact H']. }
           exists l, h. split; [right; exact Hin|exact H].
    + split.
      * intros Hacc' Hacc. assert (Hcp : hi + 1 <= cp) by (apply Hr; exact Hacc').
        apply (IH (hi + 1) cp D Hcp Hc); [exact Hacc'|].
        destruct Hacc as (l' & h' & [Hin'|Hin'] & H1' & H2'); [injection Hin' as <- <-; lia|].
        exists l', h'. auto.
      * intro Hno. assert (Hcp : hi + 1 <= cp).
        { destruct (N.le_gt_cases cp hi) as [L2|G2]; [|lia].
          exfalso. apply Hno. exists lo, hi. split; [left; reflexivity|]. lia. }
        apply (IH (hi + 1) cp D Hcp Hc).
        intros (l' & h' & Hin' & H'). apply Hno. exists l', h'. split; [right; exact Hin'|exact H'].
Qed.

Lemma complement_spec rs cp : sorted_ranges rs -> cp <= 0x10FFFF ->
  accepts (complement_character_ranges rs) cp <-> ~ accepts rs cp.
Proof. intros Hs Hc. apply complement_loop_spec; [exact Hs|lia|exact Hc]. Qed.

Lemma complement_above rs cp : 0x10FFFF < cp -> sorted_ranges rs ->
  ~ accepts (complement_character_ranges rs) cp.
Proof.
  unfold complement_character_ranges, sorted_ranges. generalize 0.
  induction rs as [|[lo hi] rs IH]; intros next Hc Hs; cbn [complement_loop].
  - destruct (next <=? 0x10FFFF); intros (l & h & Hin & H1 & H2); [|destruct Hin].
    destruct Hin as [Hin|[]]. injection Hin as <- <-. lia.
  - cbn in Hs. destruct Hs as (A & B & C & D).
    assert (E : (hi + 1) mod 4294967296 = hi + 1) by (apply N.mod_small; lia). rewrite E.
    assert (K := IH (hi + 1) Hc D).
    destruct (next <? lo); [|exact K]. intros (l & h & [Hin|Hin] & H1 & H2).
    + injection Hin as <- <-. lia.
    + apply K. exists l, h. auto.
Qed.

Lemma predefined_sorted name rs : predefined_character_class name = Some rs -> sorted_ranges rs.
Proof.
  unfold predefined_character_class, predefined_table. cbn [find fst].
  repeat match goal with |- context [if ?b then _ else _] => destruct b end;
    intro H; try discriminate H; injection H as <-; repeat (split; try lia); exact I.
Qed.
