(** Generated by tools/mkconform.py from /repo/spec/tests/core: tests of the model, see Conform.v. *)
From Coq Require Import NArith ZArith.
From Verif Require Import Base Conform.
Example character_class_single_character_range : (conf_group true [] [83;32;60;45;32;91;97;45;97;93;43]%N (conf_case false no_hooks)
  [{| x_match := (Some true); x_ast := None; x_whole := false; x_errs := []; x_value := None; x_trace := None; x_input := [97;97;97]%N |}; {| x_match := (Some false); x_ast := None; x_whole := false; x_errs := []; x_value := None; x_trace := None; x_input := [98]%N |}]) = true.
Proof. vm_compute. reflexivity. Qed.
Example character_class_special_characters_in_class : (conf_group true [] [83;32;60;45;32;91;45;92;92;93;43]%N (conf_case false no_hooks)
  [{| x_match := (Some true); x_ast := None; x_whole := false; x_errs := []; x_value := None; x_trace := None; x_input := [45;92]%N |}; {| x_match := (Some false); x_ast := None; x_whole := false; x_errs := []; x_value := None; x_trace := None; x_input := [97;98;99]%N |}]) = true.
Proof. vm_compute. reflexivity. Qed.
Example character_class_escape_sequences_in_class : (conf_group true [] [83;32;60;45;32;91;92;116;92;110;92;114;93;43]%N (conf_case false no_hooks)
  [{| x_match := (Some true); x_ast := None; x_whole := false; x_errs := []; x_value := None; x_trace := None; x_input := [9;10;13]%N |}; {| x_match := (Some false); x_ast := None; x_whole := false; x_errs := []; x_value := None; x_trace := None; x_input := [97;98;99]%N |}]) = true.
Proof. vm_compute. reflexivity. Qed.
Example character_class_negated_class_matches_unicode : (conf_group true [] [83;32;60;45;32;91;94;97;45;122;93;43]%N (conf_case false no_hooks)
  [{| x_match := (Some true); x_ast := None; x_whole := false; x_errs := []; x_value := None; x_trace := None; x_input := [49;50;51]%N |}; {| x_match := (Some true); x_ast := None; x_whole := false; x_errs := []; x_value := None; x_trace := None; x_input := [65;66;67]%N |}; {| x_match := (Some true); x_ast := None; x_whole := false; x_errs := []; x_value := None; x_trace := None; x_input := [230;151;165;230;156;172]%N |}; {| x_match := (Some false); x_ast := None; x_whole := false; x_errs := []; x_value := None; x_trace := None; x_input := [97;98;99]%N |}]) = true.
Proof. vm_compute. reflexivity. Qed.
Example character_class_case_insensitive_class : (conf_group true [] [83;32;60;45;32;91;97;45;122;93;105;43]%N (conf_case false no_hooks)
  [{| x_match := (Some true); x_ast := None; x_whole := false; x_errs := []; x_value := None; x_trace := None; x_input := [97;98;99]%N |}; {| x_match := (Some true); x_ast := None; x_whole := false; x_errs := []; x_value := None; x_trace := None; x_input := [65;66;67]%N |}; {| x_match := (Some true); x_ast := None; x_whole := false; x_errs := []; x_value := None; x_trace := None; x_input := [97;66;99]%N |}; {| x_match := (Some false); x_ast := None; x_whole := false; x_errs := []; x_value := None; x_trace := None; x_input := [49;50;51]%N |}]) = true.
Proof. vm_compute. reflexivity. Qed.
Example escapes_class_escaped_dash_is_literal : (conf_group true [] [83;32;60;45;32;91;92;45;93;43;10]%N (conf_case false no_hooks)
  [{| x_match := (Some true); x_ast := None; x_whole := false; x_errs := []; x_value := None; x_trace := None; x_input := [45]%N |}; {| x_match := (Some true); x_ast := None; x_whole := false; x_errs := []; x_value := None; x_trace := None; x_input := [45;45]%N |}; {| x_match := (Some false); x_ast := None; x_whole := false; x_errs := []; x_value := None; x_trace := None; x_input := [97]%N |}]) = true.
Proof. vm_compute. reflexivity. Qed.
Example escapes_class_escaped_caret_is_literal : (conf_group true [] [83;32;60;45;32;91;92;94;93;43;10]%N (conf_case false no_hooks)
  [{| x_match := (Some true); x_ast := None; x_whole := false; x_errs := []; x_value := None; x_trace := None; x_input := [94]%N |}; {| x_match := (Some true); x_ast := None; x_whole := false; x_errs := []; x_value := None; x_trace := None; x_input := [94;94]%N |}; {| x_match := (Some false); x_ast := None; x_whole := false; x_errs := []; x_value := None; x_trace := None; x_input := [97]%N |}]) = true.
Proof. vm_compute. reflexivity. Qed.
Example escapes_class_escaped_dash_in_set : (conf_group true [] [83;32;60;45;32;91;97;92;45;122;93;43;10]%N (conf_case false no_hooks)
  [{| x_match := (Some true); x_ast := None; x_whole := false; x_errs := []; x_value := None; x_trace := None; x_input := [97]%N |}; {| x_match := (Some true); x_ast := None; x_whole := false; x_errs := []; x_value := None; x_trace := None; x_input := [122]%N |}; {| x_match := (Some true); x_ast := None; x_whole := false; x_errs := []; x_value := None; x_trace := None; x_input := [45]%N |}; {| x_match := (Some true); x_ast := None; x_whole := false; x_errs := []; x_value := None; x_trace := None; x_input := [97;45;122]%N |}; {| x_match := (Some false); x_ast := None; x_whole := false; x_errs := []; x_value := None; x_trace := None; x_input := [98]%N |}]) = true.
Proof. vm_compute. reflexivity. Qed.
Example escapes_literal_escaped_dash_and_caret : (conf_group true [] [83;32;60;45;32;39;92;45;39;32;39;92;94;39;10]%N (conf_case false no_hooks)
  [{| x_match := (Some true); x_ast := None; x_whole := false; x_errs := []; x_value := None; x_trace := None; x_input := [45;94]%N |}; {| x_match := (Some false); x_ast := None; x_whole := false; x_errs := []; x_value := None; x_trace := None; x_input := [45]%N |}; {| x_match := (Some false); x_ast := None; x_whole := false; x_errs := []; x_value := None; x_trace := None; x_input := [94]%N |}]) = true.
Proof. vm_compute. reflexivity. Qed.
Example escapes_class_form_feed_and_vtab : (conf_group true [] [83;32;60;45;32;91;92;102;92;118;93;43;10]%N (conf_case false no_hooks)
  [{| x_match := (Some true); x_ast := None; x_whole := false; x_errs := []; x_value := None; x_trace := None; x_input := [12]%N |}; {| x_match := (Some true); x_ast := None; x_whole := false; x_errs := []; x_value := None; x_trace := None; x_input := [11]%N |}; {| x_match := (Some true); x_ast := None; x_whole := false; x_errs := []; x_value := None; x_trace := None; x_input := [12;11]%N |}; {| x_match := (Some false); x_ast := None; x_whole := false; x_errs := []; x_value := None; x_trace := None; x_input := [102]%N |}; {| x_match := (Some false); x_ast := None; x_whole := false; x_errs := []; x_value := None; x_trace := None; x_input := [118]%N |}]) = true.
Proof. vm_compute. reflexivity. Qed.
Example escapes_literal_form_feed : (conf_group true [] [83;32;60;45;32;39;97;92;102;98;39;10]%N (conf_case false no_hooks)
  [{| x_match := (Some true); x_ast := None; x_whole := false; x_errs := []; x_value := None; x_trace := None; x_input := [97;12;98]%N |}; {| x_match := (Some false); x_ast := None; x_whole := false; x_errs := []; x_value := None; x_trace := None; x_input := [97;102;98]%N |}]) = true.
Proof. vm_compute. reflexivity. Qed.
Example grammar_rejections_reject_unknown_escape_literal : (conf_rejected true [] [83;32;60;45;32;39;92;122;39;10]%N) = true.
Proof. vm_compute. reflexivity. Qed.
Example grammar_rejections_reject_unknown_escape_class : (conf_rejected true [] [83;32;60;45;32;91;92;113;93;10]%N) = true.
Proof. vm_compute. reflexivity. Qed.
Example grammar_rejections_reject_reversed_char_range : (conf_rejected true [] [83;32;60;45;32;91;122;45;97;93;10]%N) = true.
Proof. vm_compute. reflexivity. Qed.
Example grammar_rejections_reject_unknown_instruction : (conf_rejected true [] [83;32;60;45;32;39;97;39;32;123;32;98;111;103;117;115;95;105;110;115;116;114;32;125;10]%N) = true.
Proof. vm_compute. reflexivity. Qed.
Example grammar_rejections_reject_double_ignore : (conf_rejected true [] [83;32;60;45;32;126;126;65;10;65;32;60;45;32;39;97;39;10]%N) = true.
Proof. vm_compute. reflexivity. Qed.
Example grammar_rejections_reject_duplicate_whitespace : (conf_rejected true [] [37;119;104;105;116;101;115;112;97;99;101;32;60;45;32;91;32;93;42;10;37;119;104;105;116;101;115;112;97;99;101;32;60;45;32;91;46;93;42;10;83;32;60;45;32;39;97;39;10]%N) = true.
Proof. vm_compute. reflexivity. Qed.
Example grammar_rejections_reject_duplicate_word : (conf_rejected true [] [37;119;111;114;100;32;60;45;32;91;97;45;122;93;43;10;37;119;111;114;100;32;60;45;32;91;48;45;57;93;43;10;83;32;60;45;32;39;97;39;10]%N) = true.
Proof. vm_compute. reflexivity. Qed.
Example grammar_rejections_accept_all_defined_escapes : (conf_group true [] [83;32;60;45;32;39;92;110;92;116;92;102;92;118;92;45;92;94;92;91;92;93;92;92;39;10]%N (conf_case false no_hooks)
  [{| x_match := (Some true); x_ast := None; x_whole := false; x_errs := []; x_value := None; x_trace := None; x_input := [10;9;12;11;45;94;91;93;92]%N |}]) = true.
Proof. vm_compute. reflexivity. Qed.
Example grammar_rejections_accept_single_ignore : (conf_group true [] [83;32;60;45;32;126;65;32;66;10;65;32;60;45;32;39;97;39;10;66;32;60;45;32;60;32;39;98;39;32;62;10]%N (conf_case false no_hooks)
  [{| x_match := (Some true); x_ast := None; x_whole := false; x_errs := []; x_value := None; x_trace := None; x_input := [97;98]%N |}]) = true.
Proof. vm_compute. reflexivity. Qed.
Example grammar_rejections_accept_known_instruction : (conf_group true [] [83;32;60;45;32;60;32;91;97;45;122;93;43;32;62;32;123;32;110;111;95;97;115;116;95;111;112;116;32;125;10]%N (conf_case false no_hooks)
  [{| x_match := (Some true); x_ast := None; x_whole := false; x_errs := []; x_value := None; x_trace := None; x_input := [97;98;99]%N |}]) = true.
Proof. vm_compute. reflexivity. Qed.
Example grammar_rejections_accept_char_range : (conf_group true [] [83;32;60;45;32;91;97;45;122;93;43;10]%N (conf_case false no_hooks)
  [{| x_match := (Some true); x_ast := None; x_whole := false; x_errs := []; x_value := None; x_trace := None; x_input := [97;98;99]%N |}]) = true.
Proof. vm_compute. reflexivity. Qed.
Example grammar_validation_simple_syntax : (conf_group true [] [82;79;79;84;32;60;45;32;95;10;95;32;60;45;32;39;32;39]%N (conf_case false no_hooks)
  [{| x_match := (Some true); x_ast := None; x_whole := false; x_errs := []; x_value := None; x_trace := None; x_input := [32]%N |}]) = true.
Proof. vm_compute. reflexivity. Qed.
Example grammar_validation_simple_syntax_with_unicode_arrow : (conf_group true [] [82;79;79;84;32;226;134;144;32;95;10;95;32;60;45;32;39;32;39]%N (conf_case false no_hooks)
  [{| x_match := (Some true); x_ast := None; x_whole := false; x_errs := []; x_value := None; x_trace := None; x_input := [32]%N |}]) = true.
Proof. vm_compute. reflexivity. Qed.
Example grammar_validation_empty_syntax : (conf_rejected true [] []) = true.
Proof. vm_compute. reflexivity. Qed.
Example grammar_validation_start_rule_with_ignore_operator : (conf_rejected true [] [126;82;79;79;84;32;60;45;32;95;10;95;32;60;45;32;39;32;39]%N) = true.
Proof. vm_compute. reflexivity. Qed.
Example grammar_validation_backslash_escape_sequence : (conf_group true [] [82;79;79;84;32;60;45;32;95;10;95;32;60;45;32;39;92;92;39]%N (conf_case false no_hooks)
  [{| x_match := (Some true); x_ast := None; x_whole := false; x_errs := []; x_value := None; x_trace := None; x_input := [92]%N |}]) = true.
Proof. vm_compute. reflexivity. Qed.
Example grammar_validation_invalid_escape_sequence : (conf_rejected true [] [82;79;79;84;32;60;45;32;95;10;95;32;60;45;32;39;92;39]%N) = true.
Proof. vm_compute. reflexivity. Qed.
Example grammar_validation_missing_definitions : (conf_rejected true [] [65;32;60;45;32;66;32;67]%N) = true.
Proof. vm_compute. reflexivity. Qed.
Example grammar_validation_definition_duplicates : (conf_rejected true [] [65;32;60;45;32;39;39;10;65;32;60;45;32;39;39]%N) = true.
Proof. vm_compute. reflexivity. Qed.
Example grammar_validation_octal_hex_unicode_value : (conf_group true [] [82;79;79;84;32;60;45;32;39;92;49;51;50;92;120;55;97;92;117;51;48;102;51;39]%N (conf_case false no_hooks)
  [{| x_match := (Some true); x_ast := None; x_whole := false; x_errs := []; x_value := None; x_trace := None; x_input := [90;122;227;131;179]%N |}]) = true.
Proof. vm_compute. reflexivity. Qed.
Example grammar_validation_negated_class : (conf_group true [] [82;79;79;84;32;60;45;32;91;94;97;45;122;95;93;43]%N (conf_case false no_hooks)
  [{| x_match := (Some true); x_ast := None; x_whole := false; x_errs := []; x_value := None; x_trace := None; x_input := [65;66;67;49;50;51]%N |}; {| x_match := (Some false); x_ast := None; x_whole := false; x_errs := []; x_value := None; x_trace := None; x_input := [65;66;99;90]%N |}; {| x_match := (Some false); x_ast := None; x_whole := false; x_errs := []; x_value := None; x_trace := None; x_input := [65;66;67;90;95]%N |}; {| x_match := (Some false); x_ast := None; x_whole := false; x_errs := []; x_value := None; x_trace := None; x_input := [] |}]) = true.
Proof. vm_compute. reflexivity. Qed.
Example grammar_validation_invalid_cut_operator : (conf_group true [] [83;32;60;45;32;39;97;39;32;226;134;145;32;39;98;39]%N (conf_case false no_hooks)
  [{| x_match := (Some true); x_ast := None; x_whole := false; x_errs := []; x_value := None; x_trace := None; x_input := [97;98]%N |}; {| x_match := (Some false); x_ast := None; x_whole := false; x_errs := []; x_value := None; x_trace := None; x_input := [97;99]%N |}; {| x_match := (Some false); x_ast := None; x_whole := false; x_errs := []; x_value := None; x_trace := None; x_input := [98]%N |}]) = true.
Proof. vm_compute. reflexivity. Qed.
Example grammar_validation_specify_start_rule : (conf_group true [65]%N [83;116;97;114;116;32;60;45;32;65;10;65;32;60;45;32;66;32;40;39;44;39;32;66;41;42;10;66;32;60;45;32;39;91;111;110;101;93;39;32;47;32;39;91;116;119;111;93;39;10;37;119;104;105;116;101;115;112;97;99;101;32;60;45;32;91;32;92;116;92;110;93;42]%N (conf_case false no_hooks)
  [{| x_match := (Some true); x_ast := None; x_whole := false; x_errs := []; x_value := None; x_trace := None; x_input := [32;91;111;110;101;93;32;44;32;91;116;119;111;93;32]%N |}]) = true.
Proof. vm_compute. reflexivity. Qed.
Example grammar_validation_specify_invalid_start_rule : (conf_rejected true [65;65;65]%N [83;116;97;114;116;32;60;45;32;65;10;65;32;60;45;32;66;32;40;39;44;39;32;66;41;42;10;66;32;60;45;32;39;91;111;110;101;93;39;32;47;32;39;91;116;119;111;93;39;10;37;119;104;105;116;101;115;112;97;99;101;32;60;45;32;91;32;92;116;92;110;93;42]%N) = true.
Proof. vm_compute. reflexivity. Qed.
Example ignore_ignore_operator_in_rule : (conf_group true [] [83;84;65;82;84;32;60;45;32;126;72;69;76;76;79;32;87;79;82;76;68;10;72;69;76;76;79;32;60;45;32;39;72;101;108;108;111;39;32;95;10;87;79;82;76;68;32;60;45;32;39;87;111;114;108;100;39;32;95;10;95;32;60;45;32;91;32;92;116;92;114;92;110;93;42]%N (conf_ast false false)
  [{| x_match := (Some true); x_ast := (Some [43;32;83;84;65;82;84;10;32;32;43;32;87;79;82;76;68;10;32;32;32;32;45;32;95;32;40;41;10]%N); x_whole := false; x_errs := []; x_value := None; x_trace := None; x_input := [72;101;108;108;111;32;87;111;114;108;100]%N |}]) = true.
Proof. vm_compute. reflexivity. Qed.
Example ignore_ignore_not_predicate_semantic_value : (conf_group true [] [83;84;65;82;84;32;60;45;32;95;32;33;68;85;77;77;89;32;72;69;76;76;79;95;87;79;82;76;68;32;39;46;39;10;72;69;76;76;79;95;87;79;82;76;68;32;60;45;32;72;69;76;76;79;32;39;87;111;114;108;100;39;32;95;10;72;69;76;76;79;32;60;45;32;39;72;101;108;108;111;39;32;95;10;68;85;77;77;89;32;60;45;32;39;100;117;109;109;121;39;32;95;10;126;95;32;60;45;32;91;32;92;116;92;114;92;110;93;42]%N (conf_ast false false)
  [{| x_match := (Some true); x_ast := (Some [43;32;83;84;65;82;84;10;32;32;43;32;72;69;76;76;79;95;87;79;82;76;68;10;32;32;32;32;43;32;72;69;76;76;79;10]%N); x_whole := false; x_errs := []; x_value := None; x_trace := None; x_input := [72;101;108;108;111;32;87;111;114;108;100;46]%N |}]) = true.
Proof. vm_compute. reflexivity. Qed.
Example ignore_ignore_and_predicate_semantic_value : (conf_group true [] [83;84;65;82;84;32;60;45;32;95;32;38;72;69;76;76;79;32;72;69;76;76;79;95;87;79;82;76;68;32;39;46;39;10;72;69;76;76;79;95;87;79;82;76;68;32;60;45;32;72;69;76;76;79;32;39;87;111;114;108;100;39;32;95;10;72;69;76;76;79;32;60;45;32;39;72;101;108;108;111;39;32;95;10;126;95;32;60;45;32;91;32;92;116;92;114;92;110;93;42]%N (conf_ast false false)
  [{| x_match := (Some true); x_ast := (Some [43;32;83;84;65;82;84;10;32;32;43;32;72;69;76;76;79;95;87;79;82;76;68;10;32;32;32;32;43;32;72;69;76;76;79;10]%N); x_whole := false; x_errs := []; x_value := None; x_trace := None; x_input := [72;101;108;108;111;32;87;111;114;108;100;46]%N |}]) = true.
Proof. vm_compute. reflexivity. Qed.
Example ignore_skip_token_with_tilde : (conf_group true [] [82;79;79;84;32;60;45;32;95;32;73;84;69;77;32;40;39;44;39;32;95;32;73;84;69;77;32;95;41;42;10;73;84;69;77;32;60;45;32;40;91;97;45;122;48;45;57;93;41;43;10;126;95;32;60;45;32;91;32;92;116;93;42]%N (conf_case false no_hooks)
  [{| x_match := (Some true); x_ast := None; x_whole := false; x_errs := []; x_value := None; x_trace := None; x_input := [32;105;116;101;109;49;44;32;105;116;101;109;50;32]%N |}]) = true.
Proof. vm_compute. reflexivity. Qed.
Example ignore_skip_token_with_whitespace : (conf_group true [] [82;79;79;84;32;60;45;32;73;84;69;77;32;40;39;44;39;32;73;84;69;77;41;42;10;73;84;69;77;32;60;45;32;60;32;40;91;97;45;122;48;45;57;93;41;43;32;62;10;37;119;104;105;116;101;115;112;97;99;101;32;60;45;32;91;32;92;116;93;42]%N (conf_case false no_hooks)
  [{| x_match := (Some true); x_ast := None; x_whole := false; x_errs := []; x_value := None; x_trace := None; x_input := [32;105;116;101;109;49;44;32;105;116;101;109;50;32]%N |}]) = true.
Proof. vm_compute. reflexivity. Qed.
Example ignore_ignore_drops_only_target_in_ast : (conf_group true [] [83;32;60;45;32;126;65;32;66;10;65;32;60;45;32;39;97;39;10;66;32;60;45;32;60;32;39;98;39;32;62;10]%N (conf_ast false false)
  [{| x_match := (Some true); x_ast := (Some [43;32;83;10;32;32;45;32;66;32;40;98;41;10]%N); x_whole := false; x_errs := []; x_value := None; x_trace := None; x_input := [97;98]%N |}]) = true.
Proof. vm_compute. reflexivity. Qed.
Example ignore_ignore_middle_reference_in_ast : (conf_group true [] [83;32;60;45;32;65;32;126;66;32;67;10;65;32;60;45;32;60;32;39;97;39;32;62;10;66;32;60;45;32;39;98;39;10;67;32;60;45;32;60;32;39;99;39;32;62;10]%N (conf_ast false false)
  [{| x_match := (Some true); x_ast := (Some [43;32;83;10;32;32;45;32;65;32;40;97;41;10;32;32;45;32;67;32;40;99;41;10]%N); x_whole := false; x_errs := []; x_value := None; x_trace := None; x_input := [97;98;99]%N |}]) = true.
Proof. vm_compute. reflexivity. Qed.
Example ignore_ignore_repeated_reference_in_ast : (conf_group true [] [83;32;60;45;32;40;126;65;41;43;10;65;32;60;45;32;39;97;39;10]%N (conf_ast false false)
  [{| x_match := (Some true); x_ast := (Some [43;32;83;10]%N); x_whole := false; x_errs := []; x_value := None; x_trace := None; x_input := [97;97;97]%N |}]) = true.
Proof. vm_compute. reflexivity. Qed.
Example lookahead_and_predicate_does_not_consume : (conf_group true [] [83;32;60;45;32;38;39;104;101;108;108;111;39;32;39;104;101;108;108;111;32;119;111;114;108;100;39]%N (conf_case false no_hooks)
  [{| x_match := (Some true); x_ast := None; x_whole := false; x_errs := []; x_value := None; x_trace := None; x_input := [104;101;108;108;111;32;119;111;114;108;100]%N |}; {| x_match := (Some false); x_ast := None; x_whole := false; x_errs := []; x_value := None; x_trace := None; x_input := [103;111;111;100;98;121;101;32;119;111;114;108;100]%N |}]) = true.
Proof. vm_compute. reflexivity. Qed.
Example lookahead_not_predicate_does_not_consume : (conf_group true [] [83;32;60;45;32;33;39;98;97;100;39;32;60;32;91;97;45;122;93;43;32;62]%N (conf_case false no_hooks)
  [{| x_match := (Some true); x_ast := None; x_whole := false; x_errs := []; x_value := None; x_trace := None; x_input := [103;111;111;100]%N |}; {| x_match := (Some false); x_ast := None; x_whole := false; x_errs := []; x_value := None; x_trace := None; x_input := [98;97;100]%N |}; {| x_match := (Some false); x_ast := None; x_whole := false; x_errs := []; x_value := None; x_trace := None; x_input := [98;97;100;103;101]%N |}]) = true.
Proof. vm_compute. reflexivity. Qed.
Example lookahead_not_predicate_match_until : (conf_group true [] [83;32;60;45;32;40;33;39;98;97;100;39;32;46;41;42;32;33;46]%N (conf_case false no_hooks)
  [{| x_match := (Some true); x_ast := None; x_whole := false; x_errs := []; x_value := None; x_trace := None; x_input := [103;111]%N |}; {| x_match := (Some false); x_ast := None; x_whole := false; x_errs := []; x_value := None; x_trace := None; x_input := [98;97;100]%N |}]) = true.
Proof. vm_compute. reflexivity. Qed.
Example lookahead_predicate_in_sequence : (conf_group true [] [83;32;60;45;32;38;91;97;45;122;93;32;60;32;91;97;45;122;48;45;57;93;43;32;62]%N (conf_case false no_hooks)
  [{| x_match := (Some true); x_ast := None; x_whole := false; x_errs := []; x_value := None; x_trace := None; x_input := [97;98;99;49;50;51]%N |}; {| x_match := (Some false); x_ast := None; x_whole := false; x_errs := []; x_value := None; x_trace := None; x_input := [49;50;51;97;98;99]%N |}]) = true.
Proof. vm_compute. reflexivity. Qed.
Example lookahead_keyword_vs_identifier : (conf_group true [] [83;32;60;45;32;75;69;89;87;79;82;68;32;47;32;73;68;69;78;84;10;75;69;89;87;79;82;68;32;60;45;32;40;39;105;102;39;32;47;32;39;101;108;115;101;39;32;47;32;39;119;104;105;108;101;39;41;32;33;91;97;45;122;65;45;90;48;45;57;95;93;10;73;68;69;78;84;32;60;45;32;60;32;91;97;45;122;65;45;90;95;93;91;97;45;122;65;45;90;48;45;57;95;93;42;32;62]%N (conf_case false no_hooks)
  [{| x_match := (Some true); x_ast := None; x_whole := false; x_errs := []; x_value := None; x_trace := None; x_input := [105;102]%N |}; {| x_match := (Some true); x_ast := None; x_whole := false; x_errs := []; x_value := None; x_trace := None; x_input := [101;108;115;101]%N |}; {| x_match := (Some true); x_ast := None; x_whole := false; x_errs := []; x_value := None; x_trace := None; x_input := [105;102;102;121]%N |}]) = true.
Proof. vm_compute. reflexivity. Qed.
Example lookahead_not_predicate_with_any : (conf_group true [] [83;32;60;45;32;40;33;39;101;110;100;39;32;46;41;42;32;39;101;110;100;39]%N (conf_case false no_hooks)
  [{| x_match := (Some true); x_ast := None; x_whole := false; x_errs := []; x_value := None; x_trace := None; x_input := [104;101;108;108;111;32;119;111;114;108;100;32;101;110;100]%N |}; {| x_match := (Some true); x_ast := None; x_whole := false; x_errs := []; x_value := None; x_trace := None; x_input := [101;110;100]%N |}; {| x_match := (Some false); x_ast := None; x_whole := false; x_errs := []; x_value := None; x_trace := None; x_input := [104;101;108;108;111;32;119;111;114;108;100]%N |}]) = true.
Proof. vm_compute. reflexivity. Qed.
Example peg_syntax_peg_grammar : (conf_meta [71;114;97;109;109;97;114]%N [([32;68;101;102;105;110;105;116;105;111;110;32;60;45;32;97;32;47;32;40;32;98;32;99;32;41;32;47;32;100;32;10;32;114;117;108;101;50;32;60;45;32;91;97;45;122;65;45;90;93;91;97;45;122;48;45;57;45;93;43;32]%N, true)]) = true.
Proof. vm_compute. reflexivity. Qed.
Example peg_syntax_peg_definition : (conf_meta [68;101;102;105;110;105;116;105;111;110]%N [([68;101;102;105;110;105;116;105;111;110;32;60;45;32;97;32;47;32;40;98;32;99;41;32;47;32;100;32]%N, true); ([68;101;102;105;110;105;116;105;111;110;32;60;45;32;97;32;47;32;98;32;99;32;47;32;100;32]%N, true); ([68;101;102;105;110;105;116;105;111;110;100;32;226;134;144;32;97;32]%N, true); ([68;101;102;105;110;105;116;105;111;110;32]%N, false); ([32]%N, false); ([], false); ([68;101;102;105;110;105;116;105;111;110;32;61;32;97;32;47;32;40;98;32;99;41;32;47;32;100;32]%N, false); ([77;97;99;114;111;40;112;97;114;97;109;41;32;60;45;32;97;32]%N, true); ([77;97;99;114;111;32;40;112;97;114;97;109;41;32;60;45;32;97;32]%N, false)]) = true.
Proof. vm_compute. reflexivity. Qed.
Example peg_syntax_peg_expression : (conf_meta [69;120;112;114;101;115;115;105;111;110]%N [([97;32;47;32;40;98;32;99;41;32;47;32;100;32]%N, true); ([97;32;47;32;98;32;99;32;47;32;100;32]%N, true); ([97;32;98;32]%N, true); ([], true); ([32]%N, false); ([32;97;32;98;32]%N, false); ([97;47;47;98;32]%N, true); ([97;32;47;47;32;98;32]%N, true); ([97;32;47;32;47;32;98;32]%N, true)]) = true.
Proof. vm_compute. reflexivity. Qed.
Example peg_syntax_peg_sequence : (conf_meta [83;101;113;117;101;110;99;101]%N [([97;32;98;32;99;32;100;32]%N, true); ([], true); ([33]%N, false); ([60;45]%N, false); ([32;97]%N, false)]) = true.
Proof. vm_compute. reflexivity. Qed.
Example peg_syntax_peg_prefix : (conf_meta [80;114;101;102;105;120]%N [([38;91;97;93]%N, true); ([33;91;39;93]%N, true); ([45;91;39;93]%N, false); ([], false); ([32;97]%N, false)]) = true.
Proof. vm_compute. reflexivity. Qed.
Example peg_syntax_peg_suffix : (conf_meta [83;117;102;102;105;120]%N [([97;97;97;32]%N, true); ([97;97;97;63;32]%N, true); ([97;97;97;42;32]%N, true); ([97;97;97;43;32]%N, true); ([97;97;97;123;125;32]%N, false); ([97;97;97;123;49;48;125;32]%N, true); ([97;97;97;123;49;48;44;125;32]%N, true); ([97;97;97;123;49;48;44;49;48;48;125;32]%N, true); ([97;97;97;123;44;49;48;48;125;32]%N, true); ([46;32;43;32]%N, true); ([46;32;123;49;48;125;32]%N, true); ([63]%N, false); ([43]%N, false); ([123;49;48;125]%N, false); ([], false); ([32;97]%N, false)]) = true.
Proof. vm_compute. reflexivity. Qed.
Example peg_syntax_peg_primary : (conf_meta [80;114;105;109;97;114;121]%N [([95;73;100;101;110;116;105;102;105;101;114;48;95;32]%N, true); ([95;73;100;101;110;116;105;102;105;101;114;48;95;60;45]%N, false); ([40;32;95;73;100;101;110;116;105;102;105;101;114;48;95;32;95;73;100;101;110;116;105;102;105;101;114;49;95;32;41]%N, true); ([39;76;105;116;101;114;97;108;32;83;116;114;105;110;103;39]%N, true); ([34;76;105;116;101;114;97;108;32;83;116;114;105;110;103;34]%N, true); ([91;97;45;122;65;45;90;93]%N, true); ([46]%N, true); ([], false); ([32]%N, false); ([32;97]%N, false)]) = true.
Proof. vm_compute. reflexivity. Qed.
Example peg_syntax_peg_identifier : (conf_meta [73;100;101;110;116;105;102;105;101;114]%N [([95;73;100;101;110;116;105;102;105;101;114;48;95;32]%N, true); ([48;73;100;101;110;116;105;102;105;101;114;95;32]%N, false); ([73;100;101;110;124;116;32]%N, false); ([32]%N, false); ([32;97]%N, false); ([], false)]) = true.
Proof. vm_compute. reflexivity. Qed.
Example peg_syntax_peg_ident_start : (conf_meta [73;100;101;110;116;83;116;97;114;116]%N [([95]%N, true); ([97]%N, true); ([90]%N, true); ([], false); ([32]%N, false); ([48]%N, false)]) = true.
Proof. vm_compute. reflexivity. Qed.
Example peg_syntax_peg_ident_rest : (conf_meta [73;100;101;110;116;82;101;115;116]%N [([95]%N, true); ([97]%N, true); ([90]%N, true); ([], false); ([32]%N, false); ([48]%N, true)]) = true.
Proof. vm_compute. reflexivity. Qed.
Example peg_syntax_peg_literal : (conf_meta [76;105;116;101;114;97;108]%N [([39;97;98;99;39;32]%N, true); ([39;97;92;110;98;92;116;99;39;32]%N, true); ([39;97;92;50;55;55;92;116;99;39;32]%N, true); ([39;97;92;55;55;92;116;99;39;32]%N, true); ([39;97;92;56;48;92;116;99;39;32]%N, false); ([39;92;110;39;32]%N, true); ([39;97;92;39;98;39;32]%N, true); ([39;97;39;98;39;32]%N, false); ([39;97;34;39;98;39;32]%N, false); ([34;39;92;34;97;98;99;92;34;39;34;32]%N, true); ([34;39;34;97;98;99;34;39;34;32]%N, false); ([97;98;99]%N, false); ([], false); ([92]%N, false); ([39;230;151;165;230;156;172;232;170;158;39]%N, true); ([34;230;151;165;230;156;172;232;170;158;34]%N, true); ([230;151;165;230;156;172;232;170;158]%N, false)]) = true.
Proof. vm_compute. reflexivity. Qed.
Example peg_syntax_peg_class : (conf_meta [67;108;97;115;115]%N [([91;93]%N, false); ([91;97;93]%N, true); ([91;97;45;122;93]%N, true); ([91;97;122;93]%N, true); ([91;97;45;122;65;45;90;45;93]%N, true); ([91;97;45;122;65;45;90;45;48;45;57;93]%N, true); ([91;97;45;93]%N, true); ([91;45;97;93]%N, true); ([91]%N, false); ([91;97]%N, false); ([93]%N, false); ([97;93]%N, false); ([91;227;129;130;45;227;130;147;93]%N, true); ([227;129;130;45;227;130;147]%N, false); ([91;45;43;93]%N, true); ([91;43;45;93]%N, true); ([91;92;94;93]%N, true); ([91;45;93]%N, true); ([91;92;45;93]%N, true)]) = true.
Proof. vm_compute. reflexivity. Qed.
Example peg_syntax_peg_negated_class : (conf_meta [78;101;103;97;116;101;100;67;108;97;115;115]%N [([91;94;93]%N, false); ([91;94;97;93]%N, true); ([91;94;97;45;122;93]%N, true); ([91;94;97;122;93]%N, true); ([91;94;97;45;122;65;45;90;45;93]%N, true); ([91;94;97;45;122;65;45;90;45;48;45;57;93]%N, true); ([91;94;97;45;93]%N, true); ([91;94;45;97;93]%N, true); ([91;94]%N, false); ([91;94;97]%N, false); ([94;93]%N, false); ([94;97;93]%N, false); ([91;94;227;129;130;45;227;130;147;93]%N, true); ([94;227;129;130;45;227;130;147]%N, false); ([91;94;45;43;93]%N, true); ([91;94;43;45;93]%N, true); ([91;94;94;93]%N, true)]) = true.
Proof. vm_compute. reflexivity. Qed.
Example peg_syntax_peg_range : (conf_meta [82;97;110;103;101]%N [([97]%N, true); ([97;45;122]%N, true); ([97;122]%N, false); ([], false); ([97;45]%N, false); ([45;97]%N, false)]) = true.
Proof. vm_compute. reflexivity. Qed.
Example peg_syntax_peg_char : (conf_meta [67;104;97;114]%N [([92;102]%N, true); ([92;110]%N, true); ([92;114]%N, true); ([92;116]%N, true); ([92;118]%N, true); ([92;39]%N, true); ([92;34]%N, true); ([92;91]%N, true); ([92;93]%N, true); ([92;92]%N, true); ([92;48;48;48]%N, true); ([92;51;55;55]%N, true); ([92;52;55;55]%N, false); ([92;48;56;55]%N, false); ([92;48;55;57]%N, false); ([92;48;48]%N, true); ([92;55;55]%N, true); ([92;56;48]%N, false); ([92;48;56]%N, false); ([92;48]%N, true); ([92;55]%N, true); ([92;56]%N, false); ([92;120;48]%N, true); ([92;120;48;48]%N, true); ([92;120;48;48;48]%N, false); ([92;120;97]%N, true); ([92;120;97;98]%N, true); ([92;120;97;98;99]%N, false); ([92;120;65]%N, true); ([92;120;65;98]%N, true); ([92;120;65;98;99]%N, false); ([92;120;103]%N, false); ([92;120;103;97]%N, false); ([92;117;48]%N, false); ([92;117;48;48]%N, false); ([92;117;48;48;48;48]%N, true); ([92;117;48;48;48;48;48;48]%N, true); ([92;117;48;48;48;48;48;48;48]%N, false); ([92;117;70;70;70;70]%N, true); ([92;117;49;48;48;48;48]%N, true); ([92;117;49;48;70;70;70;70]%N, true); ([92;117;49;49;48;48;48;48]%N, false); ([92;117;70;70;70;70;70;70]%N, false); ([97]%N, true); ([46]%N, true); ([48]%N, true); ([92]%N, false); ([32]%N, true); ([32;32]%N, false); ([], false); ([227;129;130]%N, true)]) = true.
Proof. vm_compute. reflexivity. Qed.
Example peg_syntax_peg_operators : (conf_meta [76;69;70;84;65;82;82;79;87]%N [([60;45]%N, true)]) = true.
Proof. vm_compute. reflexivity. Qed.
Example peg_syntax_peg_operators_misc : (conf_meta [83;76;65;83;72]%N [([47;32]%N, true)]) && (conf_meta [65;78;68]%N [([38;32]%N, true)]) && (conf_meta [78;79;84]%N [([33;32]%N, true)]) && (conf_meta [81;85;69;83;84;73;79;78]%N [([63;32]%N, true)]) && (conf_meta [83;84;65;82]%N [([42;32]%N, true)]) && (conf_meta [80;76;85;83]%N [([43;32]%N, true)]) && (conf_meta [79;80;69;78]%N [([40;32]%N, true)]) && (conf_meta [67;76;79;83;69]%N [([41;32]%N, true)]) && (conf_meta [68;79;84]%N [([46;32]%N, true)]) = true.
Proof. vm_compute. reflexivity. Qed.
Example peg_syntax_peg_comment : (conf_meta [67;111;109;109;101;110;116]%N [([35;32;67;111;109;109;101;110;116;46;10]%N, true); ([35;32;67;111;109;109;101;110;116;46]%N, true); ([32]%N, false); ([97]%N, false)]) = true.
Proof. vm_compute. reflexivity. Qed.
Example peg_syntax_peg_space : (conf_meta [83;112;97;99;101]%N [([32]%N, true); ([9]%N, true); ([10]%N, true); ([], false); ([97]%N, false)]) = true.
Proof. vm_compute. reflexivity. Qed.
Example peg_syntax_peg_end_of_line : (conf_meta [69;110;100;79;102;76;105;110;101]%N [([13;10]%N, true); ([10]%N, true); ([13]%N, true); ([32]%N, false); ([], false); ([97]%N, false)]) = true.
Proof. vm_compute. reflexivity. Qed.
Example peg_syntax_peg_end_of_file : (conf_meta [69;110;100;79;102;70;105;108;101]%N [([], true); ([32]%N, false)]) = true.
Proof. vm_compute. reflexivity. Qed.
Example snapshot_nested_choice_rollback : (conf_group true [] [83;32;60;45;32;65;32;47;32;66;10;65;32;60;45;32;39;120;39;32;73;78;78;69;82;32;39;121;39;10;66;32;60;45;32;39;120;39;32;39;122;39;10;73;78;78;69;82;32;60;45;32;39;97;39;32;47;32;39;98;39;32;47;32;39;99;39]%N (conf_case false {| h_act := [([83]%N, AChoice)]; h_enter := []; h_leave := []; h_pred := []; h_flag := false |})
  [{| x_match := (Some true); x_ast := None; x_whole := false; x_errs := []; x_value := (Some (1)%Z); x_trace := None; x_input := [120;122]%N |}]) = true.
Proof. vm_compute. reflexivity. Qed.
Example snapshot_sequence_direct_write : (conf_group true [] [83;32;60;45;32;65;32;66;32;67;10;65;32;60;45;32;39;97;97;97;39;10;66;32;60;45;32;39;98;98;98;39;10;67;32;60;45;32;39;99;99;99;39]%N (conf_case false {| h_act := [([83]%N, ASize)]; h_enter := []; h_leave := []; h_pred := []; h_flag := false |})
  [{| x_match := (Some true); x_ast := None; x_whole := false; x_errs := []; x_value := (Some (3)%Z); x_trace := None; x_input := [97;97;97;98;98;98;99;99;99]%N |}]) = true.
Proof. vm_compute. reflexivity. Qed.
Example snapshot_predicate_no_side_effect : (conf_group true [] [83;32;60;45;32;38;40;65;66;41;32;67;68;10;65;66;32;60;45;32;91;97;45;122;93;43;32;91;48;45;57;93;43;10;67;68;32;60;45;32;91;97;45;122;93;43;32;91;48;45;57;93;43]%N (conf_case false {| h_act := [([83]%N, ASize)]; h_enter := []; h_leave := []; h_pred := []; h_flag := false |})
  [{| x_match := (Some true); x_ast := None; x_whole := false; x_errs := []; x_value := (Some (1)%Z); x_trace := None; x_input := [97;98;99;49;50;51]%N |}]) = true.
Proof. vm_compute. reflexivity. Qed.
Example snapshot_capture_scope_isolation : (conf_group true [] [83;32;60;45;32;36;114;101;102;60;39;104;101;108;108;111;39;62;32;36;40;73;83;79;76;65;84;69;68;41;32;36;114;101;102;10;73;83;79;76;65;84;69;68;32;60;45;32;36;114;101;102;60;39;119;111;114;108;100;39;62]%N (conf_case false no_hooks)
  [{| x_match := (Some true); x_ast := None; x_whole := false; x_errs := []; x_value := None; x_trace := None; x_input := [104;101;108;108;111;119;111;114;108;100;104;101;108;108;111]%N |}; {| x_match := (Some false); x_ast := None; x_whole := false; x_errs := []; x_value := None; x_trace := None; x_input := [104;101;108;108;111;119;111;114;108;100;119;111;114;108;100]%N |}]) = true.
Proof. vm_compute. reflexivity. Qed.
Example snapshot_repetition_partial_rollback : (conf_group true [] [83;32;60;45;32;73;84;69;77;43;10;73;84;69;77;32;60;45;32;60;32;91;97;45;122;93;43;32;62;32;39;32;39;63]%N (conf_case false {| h_act := [([83]%N, ASize)]; h_enter := []; h_leave := []; h_pred := []; h_flag := false |})
  [{| x_match := (Some true); x_ast := None; x_whole := false; x_errs := []; x_value := (Some (3)%Z); x_trace := None; x_input := [102;111;111;32;98;97;114;32;98;97;122]%N |}]) = true.
Proof. vm_compute. reflexivity. Qed.
Example snapshot_capture_rollback_on_choice_failure : (conf_group true [] [83;32;60;45;32;65;32;47;32;66;10;65;32;60;45;32;36;114;101;102;60;39;120;120;39;62;32;39;70;65;73;76;39;10;66;32;60;45;32;36;114;101;102;60;39;121;121;39;62;32;36;114;101;102]%N (conf_case false no_hooks)
  [{| x_match := (Some true); x_ast := None; x_whole := false; x_errs := []; x_value := None; x_trace := None; x_input := [121;121;121;121]%N |}; {| x_match := (Some false); x_ast := None; x_whole := false; x_errs := []; x_value := None; x_trace := None; x_input := [121;121;120;120]%N |}]) = true.
Proof. vm_compute. reflexivity. Qed.
Example start_rule_word_directive_not_default_start : (conf_group true [] [37;119;111;114;100;32;60;45;32;91;97;45;122;93;43;10;83;32;60;45;32;39;99;97;116;39;10]%N (conf_case false no_hooks)
  [{| x_match := (Some true); x_ast := None; x_whole := false; x_errs := []; x_value := None; x_trace := None; x_input := [99;97;116]%N |}; {| x_match := (Some false); x_ast := None; x_whole := false; x_errs := []; x_value := None; x_trace := None; x_input := [100;111;103]%N |}]) = true.
Proof. vm_compute. reflexivity. Qed.
Example start_rule_whitespace_directive_not_default_start : (conf_group true [] [37;119;104;105;116;101;115;112;97;99;101;32;60;45;32;91;32;93;42;10;83;32;60;45;32;39;99;97;116;39;10]%N (conf_case false no_hooks)
  [{| x_match := (Some true); x_ast := None; x_whole := false; x_errs := []; x_value := None; x_trace := None; x_input := [99;97;116]%N |}; {| x_match := (Some false); x_ast := None; x_whole := false; x_errs := []; x_value := None; x_trace := None; x_input := [100;111;103]%N |}]) = true.
Proof. vm_compute. reflexivity. Qed.
Example token_boundary_token_boundary_no_whitespace_skip : (conf_group true [] [82;79;79;84;32;60;45;32;84;79;80;10;84;79;80;32;60;45;32;60;32;39;97;39;32;39;98;39;32;39;99;39;32;62;10;37;119;104;105;116;101;115;112;97;99;101;32;60;45;32;91;32;92;116;92;114;92;110;93;42]%N (conf_case false no_hooks)
  [{| x_match := (Some false); x_ast := None; x_whole := false; x_errs := []; x_value := None; x_trace := None; x_input := [32;97;32;32;98;32;32;99;32]%N |}; {| x_match := (Some true); x_ast := None; x_whole := false; x_errs := []; x_value := None; x_trace := None; x_input := [97;98;99]%N |}]) = true.
Proof. vm_compute. reflexivity. Qed.
Example token_boundary_token_boundary_subrule_no_skip : (conf_group true [] [82;79;79;84;32;60;45;32;84;79;80;10;84;79;80;32;60;45;32;60;32;39;97;39;32;66;32;39;99;39;32;62;10;66;32;60;45;32;39;98;39;10;37;119;104;105;116;101;115;112;97;99;101;32;60;45;32;91;32;92;116;92;114;92;110;93;42]%N (conf_case false no_hooks)
  [{| x_match := (Some false); x_ast := None; x_whole := false; x_errs := []; x_value := None; x_trace := None; x_input := [32;97;32;32;98;32;32;99;32]%N |}]) = true.
Proof. vm_compute. reflexivity. Qed.
Example token_boundary_token_boundary_partial : (conf_group true [] [82;79;79;84;32;60;45;32;84;79;80;10;84;79;80;32;60;45;32;60;32;65;32;62;32;66;32;67;10;65;32;60;45;32;39;97;39;10;66;32;60;45;32;39;98;39;10;67;32;60;45;32;39;99;39;10;37;119;104;105;116;101;115;112;97;99;101;32;60;45;32;91;32;92;116;92;114;92;110;93;42]%N (conf_case false no_hooks)
  [{| x_match := (Some true); x_ast := None; x_whole := false; x_errs := []; x_value := None; x_trace := None; x_input := [32;97;32;32;98;32;32;99;32]%N |}]) = true.
Proof. vm_compute. reflexivity. Qed.
Example token_boundary_token_boundary_all_subrules : (conf_group true [] [82;79;79;84;32;60;45;32;84;79;80;10;84;79;80;32;60;45;32;60;32;65;32;66;32;67;32;62;10;65;32;60;45;32;39;97;39;10;66;32;60;45;32;39;98;39;10;67;32;60;45;32;39;99;39;10;37;119;104;105;116;101;115;112;97;99;101;32;60;45;32;91;32;92;116;92;114;92;110;93;42]%N (conf_case false no_hooks)
  [{| x_match := (Some false); x_ast := None; x_whole := false; x_errs := []; x_value := None; x_trace := None; x_input := [32;97;32;32;98;32;32;99;32]%N |}; {| x_match := (Some true); x_ast := None; x_whole := false; x_errs := []; x_value := None; x_trace := None; x_input := [97;98;99]%N |}]) = true.
Proof. vm_compute. reflexivity. Qed.
Example token_boundary_token_boundary_with_backtracking : (conf_group true [] [83;32;60;45;32;65;32;47;32;66;10;65;32;60;45;32;60;32;39;104;101;108;108;111;39;32;62;32;39;32;119;111;114;108;100;39;10;66;32;60;45;32;60;32;39;104;101;108;108;111;39;32;62;32;39;32;116;104;101;114;101;39;10;37;119;104;105;116;101;115;112;97;99;101;32;60;45;32;39;39]%N (conf_case false no_hooks)
  [{| x_match := (Some true); x_ast := None; x_whole := false; x_errs := []; x_value := None; x_trace := None; x_input := [104;101;108;108;111;32;119;111;114;108;100]%N |}; {| x_match := (Some true); x_ast := None; x_whole := false; x_errs := []; x_value := None; x_trace := None; x_input := [104;101;108;108;111;32;116;104;101;114;101]%N |}]) = true.
Proof. vm_compute. reflexivity. Qed.
Example token_boundary_token_boundary_with_unicode : (conf_group true [] [83;32;60;45;32;60;32;91;227;129;130;45;227;130;147;93;43;32;62]%N (conf_case false no_hooks)
  [{| x_match := (Some true); x_ast := None; x_whole := false; x_errs := []; x_value := None; x_trace := None; x_input := [227;129;130;227;129;132;227;129;134]%N |}]) = true.
Proof. vm_compute. reflexivity. Qed.
Example token_determination_macro_reference_rule_is_token : (conf_group true [] [83;32;60;45;32;75;87;10;75;87;32;60;45;32;75;40;39;108;101;116;39;41;10;75;40;88;41;32;60;45;32;60;32;88;32;62;10]%N (conf_ast false false)
  [{| x_match := (Some true); x_ast := (Some [43;32;83;10;32;32;45;32;75;87;32;40;108;101;116;41;10]%N); x_whole := false; x_errs := []; x_value := None; x_trace := None; x_input := [108;101;116]%N |}]) = true.
Proof. vm_compute. reflexivity. Qed.
Example token_determination_predicate_reference_does_not_block_token : (conf_group true [] [83;32;60;45;32;87;73;76;68;10;87;73;76;68;32;60;45;32;39;95;39;32;33;73;100;101;110;116;10;73;100;101;110;116;32;60;45;32;91;97;45;122;93;43;10]%N (conf_ast false false)
  [{| x_match := (Some true); x_ast := (Some [43;32;83;10;32;32;45;32;87;73;76;68;32;40;95;41;10]%N); x_whole := false; x_errs := []; x_value := None; x_trace := None; x_input := [95]%N |}]) = true.
Proof. vm_compute. reflexivity. Qed.
Example token_determination_keyword_guard_is_token : (conf_group true [] [83;32;60;45;32;75;87;10;75;87;32;60;45;32;39;108;101;116;39;32;33;73;100;101;110;116;67;104;97;114;10;73;100;101;110;116;67;104;97;114;32;60;45;32;91;97;45;122;65;45;90;48;45;57;95;93;10]%N (conf_ast false false)
  [{| x_match := (Some true); x_ast := (Some [43;32;83;10;32;32;45;32;75;87;32;40;108;101;116;41;10]%N); x_whole := false; x_errs := []; x_value := None; x_trace := None; x_input := [108;101;116]%N |}]) = true.
Proof. vm_compute. reflexivity. Qed.
