(** Generated by tools/mkconform.py from /repo/spec/tests/error: tests of the model, see Conform.v. *)
From Coq Require Import NArith ZArith.
From Verif Require Import Base Conform.
Example error_recovery_basic_recovery_with_named_error : (conf_group true [] [83;32;60;45;32;39;97;39;32;73;84;69;77;94;101;114;114;32;39;99;39;10;73;84;69;77;32;60;45;32;39;98;39;10;101;114;114;32;60;45;32;39;39;32;123;32;101;114;114;111;114;95;109;101;115;115;97;103;101;32;34;101;120;112;101;99;116;101;100;32;39;98;39;34;32;125]%N (conf_case false no_hooks)
  [{| x_match := (Some true); x_ast := None; x_whole := false; x_errs := []; x_value := None; x_trace := None; x_input := [97;98;99]%N |}; {| x_match := (Some false); x_ast := None; x_whole := false; x_errs := [(None, None, (Some [101;120;112;101;99;116;101;100;32;39;98;39]%N))]; x_value := None; x_trace := None; x_input := [97;120;99]%N |}]) = true.
Proof. vm_compute. reflexivity. Qed.
Example error_recovery_recovery_in_list_pattern : (conf_group true [] [83;32;60;45;32;73;84;69;77;32;40;39;44;39;32;73;84;69;77;41;42;10;73;84;69;77;32;60;45;32;78;85;77;32;47;32;37;114;101;99;111;118;101;114;40;40;33;40;39;44;39;32;47;32;33;46;41;32;46;41;43;41;10;78;85;77;32;60;45;32;60;32;91;48;45;57;93;43;32;62;10;37;119;104;105;116;101;115;112;97;99;101;32;60;45;32;91;32;92;116;93;42]%N (conf_case false no_hooks)
  [{| x_match := (Some true); x_ast := None; x_whole := false; x_errs := []; x_value := None; x_trace := None; x_input := [49;44;32;50;44;32;51]%N |}; {| x_match := (Some false); x_ast := None; x_whole := false; x_errs := []; x_value := None; x_trace := None; x_input := [49;44;32;97;98;99;44;32;51]%N |}]) = true.
Proof. vm_compute. reflexivity. Qed.
Example error_recovery_recovery_java_example : (conf_group true [] [80;114;111;103;32;60;45;32;80;85;66;76;73;67;32;67;76;65;83;83;32;78;65;77;69;32;76;67;85;82;32;80;85;66;76;73;67;32;83;84;65;84;73;67;32;86;79;73;68;32;77;65;73;78;32;76;80;65;82;32;83;84;82;73;78;71;32;76;66;82;65;32;82;66;82;65;32;78;65;77;69;32;82;80;65;82;32;66;108;111;99;107;83;116;109;116;32;82;67;85;82;10;66;108;111;99;107;83;116;109;116;32;60;45;32;76;67;85;82;32;40;83;116;109;116;41;42;32;82;67;85;82;94;114;99;98;108;107;10;83;116;109;116;32;60;45;32;73;102;83;116;109;116;32;47;32;87;104;105;108;101;83;116;109;116;32;47;32;80;114;105;110;116;83;116;109;116;32;47;32;68;101;99;83;116;109;116;32;47;32;65;115;115;105;103;110;83;116;109;116;32;47;32;66;108;111;99;107;83;116;109;116;10;73;102;83;116;109;116;32;60;45;32;73;70;32;76;80;65;82;32;69;120;112;32;82;80;65;82;32;83;116;109;116;32;40;69;76;83;69;32;83;116;109;116;41;63;10;87;104;105;108;101;83;116;109;116;32;60;45;32;87;72;73;76;69;32;76;80;65;82;32;69;120;112;32;82;80;65;82;32;83;116;109;116;10;68;101;99;83;116;109;116;32;60;45;32;73;78;84;32;78;65;77;69;32;40;65;83;83;73;71;78;32;69;120;112;41;63;32;83;69;77;73;10;65;115;115;105;103;110;83;116;109;116;32;60;45;32;78;65;77;69;32;65;83;83;73;71;78;32;69;120;112;32;83;69;77;73;94;115;101;109;105;97;10;80;114;105;110;116;83;116;109;116;32;60;45;32;80;82;73;78;84;76;78;32;76;80;65;82;32;69;120;112;32;82;80;65;82;32;83;69;77;73;10;69;120;112;32;60;45;32;82;101;108;69;120;112;32;40;69;81;32;82;101;108;69;120;112;41;42;10;82;101;108;69;120;112;32;60;45;32;65;100;100;69;120;112;32;40;76;84;32;65;100;100;69;120;112;41;42;10;65;100;100;69;120;112;32;60;45;32;77;117;108;69;120;112;32;40;40;80;76;85;83;32;47;32;77;73;78;85;83;41;32;77;117;108;69;120;112;41;42;10;77;117;108;69;120;112;32;60;45;32;65;116;111;109;69;120;112;32;40;40;84;73;77;69;83;32;47;32;68;73;86;41;32;65;116;111;109;69;120;112;41;42;10;65;116;111;109;69;120;112;32;60;45;32;76;80;65;82;32;69;120;112;32;82;80;65;82;32;47;32;78;85;77;66;69;82;32;47;32;78;65;77;69;10;10;78;85;77;66;69;82;32;60;45;32;60;32;91;48;45;57;93;43;32;62;10;78;65;77;69;32;60;45;32;60;32;91;97;45;122;65;45;90;95;93;91;97;45;122;65;45;90;95;48;45;57;93;42;32;62;10;10;126;76;80;65;82;32;60;45;32;39;40;39;10;126;82;80;65;82;32;60;45;32;39;41;39;10;126;76;67;85;82;32;60;45;32;39;123;39;10;126;82;67;85;82;32;60;45;32;39;125;39;10;126;76;66;82;65;32;60;45;32;39;91;39;10;126;82;66;82;65;32;60;45;32;39;93;39;10;126;83;69;77;73;32;60;45;32;39;59;39;10;10;126;69;81;32;60;45;32;39;61;61;39;10;126;76;84;32;60;45;32;39;60;39;10;126;65;83;83;73;71;78;32;60;45;32;39;61;39;10;10;126;73;70;32;60;45;32;39;105;102;39;10;126;69;76;83;69;32;60;45;32;39;101;108;115;101;39;10;126;87;72;73;76;69;32;60;45;32;39;119;104;105;108;101;39;10;10;80;76;85;83;32;60;45;32;39;43;39;10;77;73;78;85;83;32;60;45;32;39;45;39;10;84;73;77;69;83;32;60;45;32;39;42;39;10;68;73;86;32;60;45;32;39;47;39;10;10;67;76;65;83;83;32;60;45;32;39;99;108;97;115;115;39;10;80;85;66;76;73;67;32;60;45;32;39;112;117;98;108;105;99;39;10;83;84;65;84;73;67;32;60;45;32;39;115;116;97;116;105;99;39;10;10;86;79;73;68;32;60;45;32;39;118;111;105;100;39;10;73;78;84;32;60;45;32;39;105;110;116;39;10;10;77;65;73;78;32;60;45;32;39;109;97;105;110;39;10;83;84;82;73;78;71;32;60;45;32;39;83;116;114;105;110;103;39;10;80;82;73;78;84;76;78;32;60;45;32;39;83;121;115;116;101;109;46;111;117;116;46;112;114;105;110;116;108;110;39;10;10;37;119;104;105;116;101;115;112;97;99;101;32;60;45;32;91;32;92;116;92;110;93;42;10;37;119;111;114;100;32;60;45;32;78;65;77;69;10;10;114;99;98;108;107;32;60;45;32;40;33;82;67;85;82;32;40;76;67;85;82;32;83;107;105;112;84;111;82;67;85;82;32;47;32;46;41;41;42;32;82;67;85;82;32;123;32;101;114;114;111;114;95;109;101;115;115;97;103;101;32;34;109;105;115;115;105;110;103;32;101;110;100;32;111;102;32;98;108;111;99;107;46;34;32;125;10;115;101;109;105;97;32;60;45;32;39;39;32;123;32;101;114;114;111;114;95;109;101;115;115;97;103;101;32;34;109;105;115;115;105;110;103;32;115;101;109;105;99;111;108;111;110;32;105;110;32;97;115;115;105;103;110;109;101;110;116;46;34;32;125;10;10;83;107;105;112;84;111;82;67;85;82;32;60;45;32;40;33;82;67;85;82;32;40;76;67;85;82;32;83;107;105;112;84;111;82;67;85;82;32;47;32;46;41;41;42;32;82;67;85;82]%N (conf_case false no_hooks)
  [{| x_match := (Some false); x_ast := None; x_whole := true; x_errs := [((Some 8), (Some 5), (Some [109;105;115;115;105;110;103;32;115;101;109;105;99;111;108;111;110;32;105;110;32;97;115;115;105;103;110;109;101;110;116;46]%N)); ((Some 8), (Some 6), (Some [109;105;115;115;105;110;103;32;101;110;100;32;111;102;32;98;108;111;99;107;46]%N))]; x_value := None; x_trace := None; x_input := [112;117;98;108;105;99;32;99;108;97;115;115;32;69;120;97;109;112;108;101;32;123;10;32;32;112;117;98;108;105;99;32;115;116;97;116;105;99;32;118;111;105;100;32;109;97;105;110;40;83;116;114;105;110;103;91;93;32;97;114;103;115;41;32;123;10;32;32;32;32;105;110;116;32;110;32;61;32;53;59;10;32;32;32;32;105;110;116;32;102;32;61;32;49;59;10;32;32;32;32;119;104;105;108;101;40;48;32;60;32;110;41;32;123;10;32;32;32;32;32;32;102;32;61;32;102;32;42;32;110;59;10;32;32;32;32;32;32;110;32;61;32;110;32;45;32;49;10;32;32;32;32;125;59;10;32;32;32;32;83;121;115;116;101;109;46;111;117;116;46;112;114;105;110;116;108;110;40;102;41;59;10;32;32;125;10;125;10]%N |}]) = true.
Proof. vm_compute. reflexivity. Qed.
Example error_report_default_error_with_dictionary : (conf_group true [] [83;32;60;45;32;39;64;39;32;65;32;66;10;65;32;60;45;32;60;32;91;97;45;122;93;43;32;62;10;66;32;60;45;32;39;104;101;108;108;111;39;32;124;32;39;119;111;114;108;100;39;10;37;119;104;105;116;101;115;112;97;99;101;32;60;45;32;91;32;93;42;10;37;119;111;114;100;32;60;45;32;91;97;45;122;93]%N (conf_case false no_hooks)
  [{| x_match := (Some false); x_ast := None; x_whole := false; x_errs := [((Some 1), (Some 8), (Some [115;121;110;116;97;120;32;101;114;114;111;114;44;32;117;110;101;120;112;101;99;116;101;100;32;39;116;121;112;111;39;44;32;101;120;112;101;99;116;105;110;103;32;60;66;62;46]%N))]; x_value := None; x_trace := None; x_input := [32;64;32;97;97;97;32;116;121;112;111;32]%N |}]) = true.
Proof. vm_compute. reflexivity. Qed.
Example error_report_default_error_with_choice : (conf_group true [] [83;32;60;45;32;39;64;39;32;65;32;66;10;65;32;60;45;32;60;32;91;97;45;122;93;43;32;62;10;66;32;60;45;32;39;104;101;108;108;111;39;32;47;32;39;119;111;114;108;100;39;10;37;119;104;105;116;101;115;112;97;99;101;32;60;45;32;39;32;39;42;10;37;119;111;114;100;32;60;45;32;91;97;45;122;93]%N (conf_case false no_hooks)
  [{| x_match := (Some false); x_ast := None; x_whole := false; x_errs := [((Some 1), (Some 8), (Some [115;121;110;116;97;120;32;101;114;114;111;114;44;32;117;110;101;120;112;101;99;116;101;100;32;39;116;121;112;111;39;44;32;101;120;112;101;99;116;105;110;103;32;39;104;101;108;108;111;39;44;32;39;119;111;114;108;100;39;46]%N))]; x_value := None; x_trace := None; x_input := [32;64;32;97;97;97;32;116;121;112;111;32]%N |}]) = true.
Proof. vm_compute. reflexivity. Qed.
Example error_report_error_at_correct_position : (conf_group true [] [83;32;60;45;32;39;97;98;99;39;32;39;100;101;102;39;32;39;103;104;105;39]%N (conf_case false no_hooks)
  [{| x_match := (Some false); x_ast := None; x_whole := false; x_errs := [(None, (Some 7), None)]; x_value := None; x_trace := None; x_input := [97;98;99;100;101;102;88;88;88]%N |}]) = true.
Proof. vm_compute. reflexivity. Qed.
Example error_report_error_message_with_rule_instruction : (conf_group true [] [83;84;65;82;84;32;60;45;32;40;76;73;78;69;32;40;108;110;32;76;73;78;69;41;42;41;63;32;108;110;63;10;10;76;73;78;69;32;60;45;32;83;84;82;32;39;61;39;32;67;79;68;69;10;10;67;79;68;69;32;60;45;32;72;69;88;32;47;32;68;69;67;32;123;32;101;114;114;111;114;95;109;101;115;115;97;103;101;32;39;99;111;100;101;32;102;111;114;109;97;116;32;101;114;114;111;114;46;46;46;39;32;125;10;72;69;88;32;60;45;32;60;32;91;97;45;102;48;45;57;93;43;32;39;104;39;32;62;10;68;69;67;32;60;45;32;60;32;91;48;45;57;93;43;32;62;10;10;83;84;82;32;60;45;32;60;32;91;97;45;122;48;45;57;93;43;32;62;10;10;126;108;110;32;60;45;32;91;92;114;92;110;93;43;10;37;119;104;105;116;101;115;112;97;99;101;32;60;45;32;91;32;92;116;93;42]%N (conf_case false no_hooks)
  [{| x_match := (Some false); x_ast := None; x_whole := false; x_errs := [((Some 2), (Some 5), (Some [99;111;100;101;32;102;111;114;109;97;116;32;101;114;114;111;114;46;46;46]%N))]; x_value := None; x_trace := None; x_input := [49;32;61;32;97;104;10;50;32;61;32;98;10;51;32;61;32;99;104;10]%N |}]) = true.
Proof. vm_compute. reflexivity. Qed.
Example infinite_loop_infinite_loop_zom_of_zom : (conf_rejected true [] [82;79;79;84;32;60;45;32;87;72;32;84;79;75;69;78;42;32;87;72;10;84;79;75;69;78;32;60;45;32;91;97;45;122;48;45;57;93;42;10;87;72;32;60;45;32;91;32;92;116;93;42]%N) = true.
Proof. vm_compute. reflexivity. Qed.
Example infinite_loop_infinite_loop_oom_of_zom : (conf_rejected true [] [82;79;79;84;32;60;45;32;87;72;32;84;79;75;69;78;43;32;87;72;10;84;79;75;69;78;32;60;45;32;91;97;45;122;48;45;57;93;42;10;87;72;32;60;45;32;91;32;92;116;93;42]%N) = true.
Proof. vm_compute. reflexivity. Qed.
Example infinite_loop_infinite_loop_not_predicate : (conf_rejected true [] [82;79;79;84;32;60;45;32;87;72;32;84;79;75;69;78;42;32;87;72;10;84;79;75;69;78;32;60;45;32;33;39;119;111;114;100;49;39;10;87;72;32;60;45;32;91;32;92;116;93;42]%N) = true.
Proof. vm_compute. reflexivity. Qed.
Example infinite_loop_infinite_loop_and_predicate : (conf_rejected true [] [82;79;79;84;32;60;45;32;87;72;32;84;79;75;69;78;42;32;87;72;10;84;79;75;69;78;32;60;45;32;38;39;119;111;114;100;49;39;10;87;72;32;60;45;32;91;32;92;116;93;42]%N) = true.
Proof. vm_compute. reflexivity. Qed.
Example infinite_loop_infinite_loop_spacing_with_eof : (conf_rejected true [] [78;117;109;98;101;114;115;32;60;45;32;78;117;109;98;101;114;42;10;78;117;109;98;101;114;32;60;45;32;91;48;45;57;93;43;32;47;32;83;112;97;99;105;110;103;10;83;112;97;99;105;110;103;32;60;45;32;39;32;39;32;47;32;39;92;116;39;32;47;32;39;92;110;39;32;47;32;69;79;70;10;69;79;70;32;60;45;32;33;46]%N) = true.
Proof. vm_compute. reflexivity. Qed.
Example infinite_loop_infinite_loop_empty_string_zom : (conf_rejected true [] [83;32;60;45;32;39;39;42]%N) = true.
Proof. vm_compute. reflexivity. Qed.
Example infinite_loop_infinite_loop_indirect_empty : (conf_rejected true [] [83;32;60;45;32;65;42;10;65;32;60;45;32;39;39]%N) = true.
Proof. vm_compute. reflexivity. Qed.
Example infinite_loop_infinite_loop_empty_choice_zom : (conf_rejected true [] [82;79;79;84;32;60;45;32;40;39;65;39;32;47;41;42]%N) = true.
Proof. vm_compute. reflexivity. Qed.
Example infinite_loop_infinite_loop_recover_empty_choice : (conf_rejected true [] [82;79;79;84;32;60;45;32;37;114;101;99;111;118;101;114;40;40;39;65;39;32;47;41;42;41]%N) = true.
Proof. vm_compute. reflexivity. Qed.
Example infinite_loop_not_infinite_eof_separate : (conf_group true [] [78;117;109;98;101;114;115;32;60;45;32;78;117;109;98;101;114;42;32;69;79;70;10;78;117;109;98;101;114;32;60;45;32;91;48;45;57;93;43;32;47;32;83;112;97;99;105;110;103;10;83;112;97;99;105;110;103;32;60;45;32;39;32;39;32;47;32;39;92;116;39;32;47;32;39;92;110;39;10;69;79;70;32;60;45;32;33;46]%N (conf_case false no_hooks)
  [{| x_match := (Some true); x_ast := None; x_whole := false; x_errs := []; x_value := None; x_trace := None; x_input := [49;50;51;32;52;53;54]%N |}]) = true.
Proof. vm_compute. reflexivity. Qed.
Example infinite_loop_not_infinite_sequence_nonempty : (conf_group true [] [82;79;79;84;32;60;45;32;95;32;40;39;91;39;32;84;65;71;95;78;65;77;69;32;39;93;39;32;95;41;42;10;84;65;71;95;78;65;77;69;32;60;45;32;40;33;39;93;39;32;46;41;43;10;95;32;60;45;32;91;32;92;116;93;42]%N (conf_case false no_hooks)
  [{| x_match := (Some true); x_ast := None; x_whole := false; x_errs := []; x_value := None; x_trace := None; x_input := [91;116;97;103;49;93;32;91;116;97;103;50;93]%N |}]) = true.
Proof. vm_compute. reflexivity. Qed.
Example infinite_loop_not_infinite_expression : (conf_group true [] [69;88;80;82;69;83;83;73;79;78;32;60;45;32;95;32;84;69;82;77;32;40;84;69;82;77;95;79;80;69;82;65;84;79;82;32;84;69;82;77;41;42;10;84;69;82;77;32;60;45;32;70;65;67;84;79;82;32;40;70;65;67;84;79;82;95;79;80;69;82;65;84;79;82;32;70;65;67;84;79;82;41;42;10;70;65;67;84;79;82;32;60;45;32;78;85;77;66;69;82;32;47;32;39;40;39;32;95;32;69;88;80;82;69;83;83;73;79;78;32;39;41;39;32;95;10;84;69;82;77;95;79;80;69;82;65;84;79;82;32;60;45;32;60;32;91;45;43;93;32;62;32;95;10;70;65;67;84;79;82;95;79;80;69;82;65;84;79;82;32;60;45;32;60;32;91;42;47;93;32;62;32;95;10;78;85;77;66;69;82;32;60;45;32;60;32;91;48;45;57;93;43;32;62;32;95;10;95;32;60;45;32;91;32;92;116;92;114;92;110;93;42]%N (conf_case false no_hooks)
  [{| x_match := (Some true); x_ast := None; x_whole := false; x_errs := []; x_value := None; x_trace := None; x_input := [49;32;43;32;50;32;42;32;51]%N |}]) = true.
Proof. vm_compute. reflexivity. Qed.
Example infinite_loop_infinite_loop_whitespace : (conf_rejected true [] [83;32;60;45;32;39;104;101;108;108;111;39;10;37;119;104;105;116;101;115;112;97;99;101;32;60;45;32;40;39;39;41;42]%N) = true.
Proof. vm_compute. reflexivity. Qed.
Example infinite_loop_infinite_loop_word : (conf_rejected true [] [83;32;60;45;32;39;104;101;108;108;111;39;10;37;119;104;105;116;101;115;112;97;99;101;32;60;45;32;39;32;39;42;10;37;119;111;114;100;32;60;45;32;40;39;39;41;42]%N) = true.
Proof. vm_compute. reflexivity. Qed.
Example infinite_loop_infinite_loop_in_sequence : (conf_rejected true [] [83;32;60;45;32;65;42;10;65;32;60;45;32;39;97;39;32;66;10;66;32;60;45;32;39;97;39;32;39;39;42]%N) = true.
Proof. vm_compute. reflexivity. Qed.
Example infinite_loop_infinite_loop_in_prioritized_choice : (conf_rejected true [] [83;32;60;45;32;65;42;10;65;32;60;45;32;39;97;39;32;47;32;39;98;39;32;66;10;66;32;60;45;32;39;97;39;32;39;39;42]%N) = true.
Proof. vm_compute. reflexivity. Qed.
Example trailing_and_predicate_trailing_input_reports_eoi : (conf_group true [] [83;32;60;45;32;39;97;39;10]%N (conf_case false no_hooks)
  [{| x_match := (Some true); x_ast := None; x_whole := false; x_errs := []; x_value := None; x_trace := None; x_input := [97]%N |}; {| x_match := (Some false); x_ast := None; x_whole := false; x_errs := [((Some 1), (Some 2), (Some [101;120;112;101;99;116;101;100;32;101;110;100;32;111;102;32;105;110;112;117;116]%N))]; x_value := None; x_trace := None; x_input := [97;98]%N |}; {| x_match := (Some false); x_ast := None; x_whole := false; x_errs := [((Some 1), (Some 2), (Some [101;120;112;101;99;116;101;100;32;101;110;100;32;111;102;32;105;110;112;117;116]%N))]; x_value := None; x_trace := None; x_input := [97;32]%N |}]) = true.
Proof. vm_compute. reflexivity. Qed.
Example trailing_and_predicate_trailing_after_repetition : (conf_group true [] [83;32;60;45;32;91;48;45;57;93;43;10]%N (conf_case false no_hooks)
  [{| x_match := (Some true); x_ast := None; x_whole := false; x_errs := []; x_value := None; x_trace := None; x_input := [49;50]%N |}; {| x_match := (Some false); x_ast := None; x_whole := false; x_errs := [((Some 1), (Some 3), (Some [101;120;112;101;99;116;101;100;32;101;110;100;32;111;102;32;105;110;112;117;116]%N))]; x_value := None; x_trace := None; x_input := [49;50;120]%N |}; {| x_match := (Some false); x_ast := None; x_whole := false; x_errs := [((Some 1), (Some 3), (Some [101;120;112;101;99;116;101;100;32;101;110;100;32;111;102;32;105;110;112;117;116]%N))]; x_value := None; x_trace := None; x_input := [49;50;32]%N |}]) = true.
Proof. vm_compute. reflexivity. Qed.
Example trailing_and_predicate_deeper_error_past_match_wins : (conf_group true [] [83;32;60;45;32;76;105;110;101;43;10;76;105;110;101;32;60;45;32;91;97;45;122;93;43;32;39;92;110;39;10]%N (conf_case false no_hooks)
  [{| x_match := (Some true); x_ast := None; x_whole := false; x_errs := []; x_value := None; x_trace := None; x_input := [97;98;10;99;100;10]%N |}; {| x_match := (Some false); x_ast := None; x_whole := false; x_errs := [((Some 2), (Some 3), (Some [115;121;110;116;97;120;32;101;114;114;111;114;44;32;101;120;112;101;99;116;105;110;103;32;39;10;39;46]%N))]; x_value := None; x_trace := None; x_input := [97;98;10;100;101]%N |}]) = true.
Proof. vm_compute. reflexivity. Qed.
Example trailing_and_predicate_not_predicate_failure_names_rule : (conf_group true [] [83;32;60;45;32;33;39;120;39;32;91;97;45;122;93;32;39;121;39;10]%N (conf_case false no_hooks)
  [{| x_match := (Some true); x_ast := None; x_whole := false; x_errs := []; x_value := None; x_trace := None; x_input := [97;121]%N |}; {| x_match := (Some false); x_ast := None; x_whole := false; x_errs := [((Some 1), (Some 1), (Some [115;121;110;116;97;120;32;101;114;114;111;114;44;32;117;110;101;120;112;101;99;116;101;100;32;39;120;121;39;44;32;101;120;112;101;99;116;105;110;103;32;60;83;62;46]%N))]; x_value := None; x_trace := None; x_input := [120;121]%N |}]) = true.
Proof. vm_compute. reflexivity. Qed.
