(** * Property C11: the packrat hash table is a finite map. *)
From Verif Require Import Base PackratCacheM PackratCacheProofs.

(** [e] is the expected size given to the constructor; [valid] keys are all but
    the two sentinels.  [pc_find] never runs out of fuel (= always terminates,
    fuel being the capacity) and answers like [last_write]. *)
Theorem C11_cache_is_a_map : forall (V : Type) (e : N) (c0 : pcache V) (ops : list (pc_op V)),
  pc_new e = Ok c0 -> Forall (fun o => valid (op_key o)) ops ->
  exists c, fold_left pc_step ops (Ok c0) = Ok c
    /\ pc_used c <= List.length (pc_keys c) * 3 / 4
    /\ (forall key, valid key -> pc_find c key = Ok (last_write ops key)).
Proof. exact @cache_refines_map. Qed.
Print Assumptions C11_cache_is_a_map.

(** The constructor terminates for every expected size below 2^62. *)
Example C11_meets : exists c0 : pcache nat, pc_new 5000 = Ok c0 /\ pc_init c0 = 8192%N
  /\ Forall (fun o : pc_op nat => valid (op_key o)) [Insert 3%N (Some 1); Erase 3%N; Insert 77%N None].
Proof.
  eexists. split; [reflexivity|]. split; [reflexivity|].
  repeat constructor; cbn; unfold kEmpty, kTombstone; lia.
Qed.
