(** * What the calls after a load amount to (for C58). *)
From Verif Require Import Base Ope Ctx Engine Top ObjM.
From Verif Require LoadM.

Section Spec.
  Context {V U : Type}.
  Notation op := (@op V U).
  Notation hooks := (@hooks V U).

  (** The last value given to enable_left_recursion and whether a logger was set last;
      [b] if never. *)
  Fixpoint last_lr (b : bool) (l : list op) : bool := match l with [] => b | OLeftRec c :: l' => last_lr c l' | _ :: l' => last_lr b l' end.
  Fixpoint last_log (b : bool) (l : list op) : bool := match l with [] => b | OLogger c :: l' => last_log c l' | _ :: l' => last_log b l' end.
  Definition makes_grammar (x : op) : bool := match x with OLoad _ _ | OBlob _ => true | _ => false end.
  (** The settings of the start rule; [pk]: the grammar text allows packrat parsing. *)
  Fixpoint settings_after (pk : bool) (s : settings) (l : list op) : settings :=
    match l with
    | [] => s
    | x :: l' =>
      settings_after pk
        (match x with
         | ONoEoi => {| st_eoi := false; st_packrat := st_packrat s; st_tracer := st_tracer s; st_verbose := st_verbose s |}
         | OPackrat => {| st_eoi := st_eoi s; st_packrat := pk; st_tracer := st_tracer s; st_verbose := st_verbose s |}
         | OTrace => {| st_eoi := st_eoi s; st_packrat := st_packrat s; st_tracer := true; st_verbose := st_verbose s |}
         | OVerbose b => {| st_eoi := st_eoi s; st_packrat := st_packrat s; st_tracer := st_tracer s; st_verbose := b |}
         | _ => s
         end) l'
    end.
  (** The callbacks of each rule. *)
  Fixpoint hooks_after (g : grammar) (k : rid -> hooks) (l : list op) : rid -> hooks :=
    match l with
    | [] => k
    | OHook name f :: l' =>
      hooks_after g (match LoadM.rule_named g name with Some q => fun r => if r =? q then f (k r) else k r | None => k end) l'
    | OAst f :: l' =>
      hooks_after g (fun r => match nth_error g r with
                   | Some d =>
                     match hk_action (k r) with
                     | Some _ => k r
                     | None => {| hk_action := Some (f d); hk_pred := hk_pred (k r); hk_enter := hk_enter (k r); hk_leave := hk_leave (k r) |}
                     end
                   | None => k r
                   end) l'
    | _ :: l' => hooks_after g k l'
    end.
  (** The parser they describe. *)
  Definition described (u0 : U) (L : LoadM.loaded) (pk log : bool) (l : list op) : pobj V U :=
    let st := settings_after pk {| st_eoi := true; st_packrat := false; st_tracer := false; st_verbose := false |} l in
    let k := hooks_after (LoadM.ld_g L) (fun _ => {| hk_action := None; hk_pred := None; hk_enter := None; hk_leave := None |}) l in
    {| p_g := LoadM.ld_g L; p_start := LoadM.ld_start L; p_ws := LoadM.ld_ws L; p_word := LoadM.ld_word L;
       p_packrat := st_packrat st; p_slot := fun _ => None; p_cached := 0; p_eoi := st_eoi st;
       p_tracer := st_tracer st; p_verbose := st_verbose st; p_log := log; p_u0 := u0;
       p_action := fun r => hk_action (k r); p_pred := fun r => hk_pred (k r);
       p_enter := fun r => hk_enter (k r); p_leave := fun r => hk_leave (k r); p_user := fun _ _ _ vs u => (None, vs, u) |}.
  (** A load_blob that does not change the start rule unless it succeeds. *)
  Definition calm (fuel : nat) (border : list rid) (x : op) : Prop :=
    match x with OBlob blob => (exists L, BlobM.load_blob fuel fuel border blob = Ok L) \/ blob_name blob = None | _ => True end.
End Spec.
