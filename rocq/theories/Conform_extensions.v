(** Generated by tools/mkconform.py from /repo/spec/tests/extensions: tests of the model, see Conform.v. *)
From Coq Require Import NArith ZArith.
From Verif Require Import Base Conform.
Example capture_backreference_backreference_raw_string : (conf_group true [] [83;84;65;82;84;32;60;45;32;95;32;76;81;85;79;84;69;32;60;32;40;33;82;81;85;79;84;69;32;46;41;42;32;62;32;82;81;85;79;84;69;32;95;10;76;81;85;79;84;69;32;60;45;32;39;82;34;39;32;36;100;101;108;109;60;32;91;97;45;122;65;45;90;93;42;32;62;32;39;40;39;10;82;81;85;79;84;69;32;60;45;32;39;41;39;32;36;100;101;108;109;32;39;34;39;10;126;95;32;60;45;32;91;32;92;116;92;114;92;110;93;42]%N (conf_case false no_hooks)
  [{| x_match := (Some true); x_ast := None; x_whole := false; x_errs := []; x_value := None; x_trace := None; x_input := [82;34;40;34;104;101;108;108;111;32;119;111;114;108;100;34;41;34]%N |}; {| x_match := (Some true); x_ast := None; x_whole := false; x_errs := []; x_value := None; x_trace := None; x_input := [82;34;102;111;111;40;34;40;104;101;108;108;111;32;119;111;114;108;100;41;34;41;102;111;111;34]%N |}; {| x_match := (Some false); x_ast := None; x_whole := false; x_errs := []; x_value := None; x_trace := None; x_input := [82;34;102;111;111;40;34;40;104;101;108;108;111;32;119;111;114;108;100;41;34;41;98;97;114;34]%N |}]) = true.
Proof. vm_compute. reflexivity. Qed.
Example capture_backreference_undefined_backreference : (conf_rejected true [] [83;32;60;45;32;36;98;114;101;102]%N) = true.
Proof. vm_compute. reflexivity. Qed.
Example capture_backreference_nested_capture_html_tags : (conf_group true [] [82;79;79;84;32;60;45;32;67;79;78;84;69;78;84;10;67;79;78;84;69;78;84;32;60;45;32;40;69;76;69;77;69;78;84;32;47;32;84;69;88;84;41;42;10;69;76;69;77;69;78;84;32;60;45;32;36;40;83;84;65;71;32;67;79;78;84;69;78;84;32;69;84;65;71;41;10;83;84;65;71;32;60;45;32;39;60;39;32;36;116;97;103;60;32;84;65;71;95;78;65;77;69;32;62;32;39;62;39;10;69;84;65;71;32;60;45;32;39;60;47;39;32;36;116;97;103;32;39;62;39;10;84;65;71;95;78;65;77;69;32;60;45;32;39;98;39;32;47;32;39;117;39;10;84;69;88;84;32;60;45;32;84;69;88;84;95;68;65;84;65;10;84;69;88;84;95;68;65;84;65;32;60;45;32;33;91;60;93;32;46]%N (conf_case false no_hooks)
  [{| x_match := (Some true); x_ast := None; x_whole := false; x_errs := []; x_value := None; x_trace := None; x_input := [84;104;105;115;32;105;115;32;60;98;62;97;32;60;117;62;116;101;115;116;60;47;117;62;32;116;101;120;116;60;47;98;62;46]%N |}; {| x_match := (Some false); x_ast := None; x_whole := false; x_errs := []; x_value := None; x_trace := None; x_input := [84;104;105;115;32;105;115;32;60;98;62;97;32;60;117;62;116;101;115;116;60;47;98;62;32;116;101;120;116;60;47;117;62;46]%N |}; {| x_match := (Some false); x_ast := None; x_whole := false; x_errs := []; x_value := None; x_trace := None; x_input := [84;104;105;115;32;105;115;32;60;98;62;97;32;60;117;62;116;101;115;116;32;116;101;120;116;60;47;98;62;46]%N |}; {| x_match := (Some false); x_ast := None; x_whole := false; x_errs := []; x_value := None; x_trace := None; x_input := [84;104;105;115;32;105;115;32;97;32;60;117;62;116;101;115;116;60;47;117;62;32;116;101;120;116;60;47;98;62;46]%N |}]) = true.
Proof. vm_compute. reflexivity. Qed.
Example capture_backreference_backreference_in_sequence : (conf_group true [] [83;32;60;45;32;36;116;97;103;60;91;97;45;122;93;43;62;32;39;61;39;32;36;116;97;103]%N (conf_case false no_hooks)
  [{| x_match := (Some true); x_ast := None; x_whole := false; x_errs := []; x_value := None; x_trace := None; x_input := [97;98;99;61;97;98;99]%N |}; {| x_match := (Some false); x_ast := None; x_whole := false; x_errs := []; x_value := None; x_trace := None; x_input := [97;98;99;61;100;101;102]%N |}]) = true.
Proof. vm_compute. reflexivity. Qed.
Example capture_backreference_backreference_with_choices : (conf_group true [] [83;32;60;45;32;79;80;69;78;32;67;79;78;84;69;78;84;32;67;76;79;83;69;10;79;80;69;78;32;60;45;32;36;100;101;108;105;109;60;39;40;39;32;47;32;39;91;39;32;47;32;39;123;39;62;10;67;76;79;83;69;32;60;45;32;36;100;101;108;105;109;10;67;79;78;84;69;78;84;32;60;45;32;91;97;45;122;93;43]%N (conf_case false no_hooks)
  [{| x_match := (Some true); x_ast := None; x_whole := false; x_errs := []; x_value := None; x_trace := None; x_input := [40;104;101;108;108;111;40]%N |}; {| x_match := (Some true); x_ast := None; x_whole := false; x_errs := []; x_value := None; x_trace := None; x_input := [91;104;101;108;108;111;91]%N |}; {| x_match := (Some false); x_ast := None; x_whole := false; x_errs := []; x_value := None; x_trace := None; x_input := [40;104;101;108;108;111;91]%N |}]) = true.
Proof. vm_compute. reflexivity. Qed.
Example capture_backreference_backreference_with_zero_or_more : (conf_group true [] [84;82;69;69;32;60;45;32;87;82;79;78;71;95;66;82;65;78;67;72;42;32;67;79;82;82;69;67;84;95;66;82;65;78;67;72;10;87;82;79;78;71;95;66;82;65;78;67;72;32;60;45;32;66;82;65;78;67;72;32;84;72;65;84;32;73;83;95;99;97;112;116;117;114;101;32;87;82;79;78;71;10;67;79;82;82;69;67;84;95;66;82;65;78;67;72;32;60;45;32;66;82;65;78;67;72;32;84;72;65;84;32;73;83;95;98;97;99;107;114;101;102;32;67;79;82;82;69;67;84;10;66;82;65;78;67;72;32;60;45;32;39;98;114;97;110;99;104;39;10;84;72;65;84;32;60;45;32;39;116;104;97;116;39;10;73;83;95;99;97;112;116;117;114;101;32;60;45;32;36;114;101;102;60;46;46;62;10;73;83;95;98;97;99;107;114;101;102;32;60;45;32;36;114;101;102;10;87;82;79;78;71;32;60;45;32;39;119;114;111;110;103;39;10;67;79;82;82;69;67;84;32;60;45;32;39;99;111;114;114;101;99;116;39]%N (conf_case false no_hooks)
  [{| x_match := (Some true); x_ast := None; x_whole := false; x_errs := []; x_value := None; x_trace := None; x_input := [98;114;97;110;99;104;116;104;97;116;105;115;119;114;111;110;103;98;114;97;110;99;104;116;104;97;116;105;115;99;111;114;114;101;99;116]%N |}; {| x_match := (Some false); x_ast := None; x_whole := false; x_errs := []; x_value := None; x_trace := None; x_input := [98;114;97;110;99;104;116;104;97;116;105;115;119;114;111;110;103;98;114;97;110;99;104;116;104;97;116;73;115;99;111;114;114;101;99;116]%N |}; {| x_match := (Some false); x_ast := None; x_whole := false; x_errs := []; x_value := None; x_trace := None; x_input := [98;114;97;110;99;104;116;104;97;116;105;115;99;111;114;114;101;99;116]%N |}]) = true.
Proof. vm_compute. reflexivity. Qed.
Example case_insensitive_case_insensitive_literal : (conf_group true [] [82;79;79;84;32;60;45;32;72;69;76;76;79;32;87;79;82;76;68;10;72;69;76;76;79;32;60;45;32;39;104;101;108;108;111;39;105;10;87;79;82;76;68;32;60;45;32;39;119;111;114;108;100;39;105;10;37;119;104;105;116;101;115;112;97;99;101;32;60;45;32;91;32;92;116;92;114;92;110;93;42]%N (conf_case false no_hooks)
  [{| x_match := (Some true); x_ast := None; x_whole := false; x_errs := []; x_value := None; x_trace := None; x_input := [32;32;72;101;108;108;111;32;87;111;114;108;100;32;32]%N |}; {| x_match := (Some true); x_ast := None; x_whole := false; x_errs := []; x_value := None; x_trace := None; x_input := [72;69;76;76;79;32;87;79;82;76;68]%N |}; {| x_match := (Some true); x_ast := None; x_whole := false; x_errs := []; x_value := None; x_trace := None; x_input := [104;101;108;108;111;32;119;111;114;108;100]%N |}]) = true.
Proof. vm_compute. reflexivity. Qed.
Example case_insensitive_case_insensitive_character_class : (conf_group true [] [82;79;79;84;32;60;45;32;91;97;45;122;93;105;43]%N (conf_case false no_hooks)
  [{| x_match := (Some true); x_ast := None; x_whole := false; x_errs := []; x_value := None; x_trace := None; x_input := [97;98;99]%N |}; {| x_match := (Some true); x_ast := None; x_whole := false; x_errs := []; x_value := None; x_trace := None; x_input := [65;66;67]%N |}; {| x_match := (Some true); x_ast := None; x_whole := false; x_errs := []; x_value := None; x_trace := None; x_input := [65;98;99]%N |}; {| x_match := (Some false); x_ast := None; x_whole := false; x_errs := []; x_value := None; x_trace := None; x_input := [49;50;51]%N |}]) = true.
Proof. vm_compute. reflexivity. Qed.
Example case_insensitive_case_insensitive_negated_character_class : (conf_group true [] [82;79;79;84;32;60;45;32;91;94;97;45;122;93;105;43]%N (conf_case false no_hooks)
  [{| x_match := (Some true); x_ast := None; x_whole := false; x_errs := []; x_value := None; x_trace := None; x_input := [49;50;51]%N |}; {| x_match := (Some false); x_ast := None; x_whole := false; x_errs := []; x_value := None; x_trace := None; x_input := [65;66;67]%N |}]) = true.
Proof. vm_compute. reflexivity. Qed.
Example cut_basic_backtrack_prevention : (conf_group true [] [83;32;60;45;32;65;32;47;32;66;10;65;32;60;45;32;39;97;39;32;226;134;145;32;39;98;39;10;66;32;60;45;32;39;97;39;32;39;99;39]%N (conf_case false no_hooks)
  [{| x_match := (Some true); x_ast := None; x_whole := false; x_errs := []; x_value := None; x_trace := None; x_input := [97;98]%N |}; {| x_match := (Some false); x_ast := None; x_whole := false; x_errs := []; x_value := None; x_trace := None; x_input := [97;99]%N |}]) = true.
Proof. vm_compute. reflexivity. Qed.
Example cut_without_cut_allows_backtrack : (conf_group true [] [83;32;60;45;32;65;32;47;32;66;10;65;32;60;45;32;39;97;39;32;39;98;39;10;66;32;60;45;32;39;97;39;32;39;99;39]%N (conf_case false no_hooks)
  [{| x_match := (Some true); x_ast := None; x_whole := false; x_errs := []; x_value := None; x_trace := None; x_input := [97;98]%N |}; {| x_match := (Some true); x_ast := None; x_whole := false; x_errs := []; x_value := None; x_trace := None; x_input := [97;99]%N |}]) = true.
Proof. vm_compute. reflexivity. Qed.
Example cut_cut_with_multiple_alternatives : (conf_group true [] [83;32;60;45;32;65;32;47;32;66;32;47;32;67;10;65;32;60;45;32;39;120;39;32;226;134;145;32;39;97;39;10;66;32;60;45;32;39;120;39;32;39;98;39;10;67;32;60;45;32;39;121;39;32;39;99;39]%N (conf_case false no_hooks)
  [{| x_match := (Some true); x_ast := None; x_whole := false; x_errs := []; x_value := None; x_trace := None; x_input := [120;97]%N |}; {| x_match := (Some false); x_ast := None; x_whole := false; x_errs := []; x_value := None; x_trace := None; x_input := [120;98]%N |}; {| x_match := (Some true); x_ast := None; x_whole := false; x_errs := []; x_value := None; x_trace := None; x_input := [121;99]%N |}]) = true.
Proof. vm_compute. reflexivity. Qed.
Example cut_cut_in_nested_rules : (conf_group true [] [83;32;60;45;32;83;84;77;84;42;10;83;84;77;84;32;60;45;32;73;70;32;47;32;65;83;83;73;71;78;10;73;70;32;60;45;32;39;105;102;39;32;226;134;145;32;69;88;80;82;32;39;116;104;101;110;39;32;69;88;80;82;10;65;83;83;73;71;78;32;60;45;32;78;65;77;69;32;39;61;39;32;69;88;80;82;10;69;88;80;82;32;60;45;32;78;65;77;69;32;47;32;78;85;77;10;78;65;77;69;32;60;45;32;60;32;91;97;45;122;93;43;32;62;10;78;85;77;32;60;45;32;60;32;91;48;45;57;93;43;32;62;10;37;119;104;105;116;101;115;112;97;99;101;32;60;45;32;91;32;92;116;93;42]%N (conf_case false no_hooks)
  [{| x_match := (Some true); x_ast := None; x_whole := false; x_errs := []; x_value := None; x_trace := None; x_input := [105;102;32;120;32;116;104;101;110;32;49]%N |}; {| x_match := (Some true); x_ast := None; x_whole := false; x_errs := []; x_value := None; x_trace := None; x_input := [120;32;61;32;49]%N |}; {| x_match := (Some false); x_ast := None; x_whole := false; x_errs := []; x_value := None; x_trace := None; x_input := [105;102]%N |}]) = true.
Proof. vm_compute. reflexivity. Qed.
Example cut_cut_does_not_affect_outer_choice : (conf_group true [] [83;32;60;45;32;73;78;78;69;82;32;47;32;39;102;97;108;108;98;97;99;107;39;10;73;78;78;69;82;32;60;45;32;65;32;47;32;66;10;65;32;60;45;32;39;97;39;32;226;134;145;32;39;120;39;10;66;32;60;45;32;39;97;39;32;39;121;39]%N (conf_case false no_hooks)
  [{| x_match := (Some true); x_ast := None; x_whole := false; x_errs := []; x_value := None; x_trace := None; x_input := [97;120]%N |}; {| x_match := (Some true); x_ast := None; x_whole := false; x_errs := []; x_value := None; x_trace := None; x_input := [102;97;108;108;98;97;99;107]%N |}]) = true.
Proof. vm_compute. reflexivity. Qed.
Example cut_cut_with_repetition : (conf_group true [] [83;32;60;45;32;73;84;69;77;43;10;73;84;69;77;32;60;45;32;39;97;39;32;226;134;145;32;39;98;39;32;47;32;39;99;39;32;39;100;39;10;37;119;104;105;116;101;115;112;97;99;101;32;60;45;32;91;32;92;116;93;42]%N (conf_case false no_hooks)
  [{| x_match := (Some true); x_ast := None; x_whole := false; x_errs := []; x_value := None; x_trace := None; x_input := [97;98;32;97;98]%N |}; {| x_match := (Some true); x_ast := None; x_whole := false; x_errs := []; x_value := None; x_trace := None; x_input := [99;100]%N |}; {| x_match := (Some false); x_ast := None; x_whole := false; x_errs := []; x_value := None; x_trace := None; x_input := [97;98;32;97;99]%N |}]) = true.
Proof. vm_compute. reflexivity. Qed.
Example dictionary_dictionary_basic : (conf_group true [] [83;84;65;82;84;32;60;45;32;39;84;104;105;115;32;109;111;110;116;104;32;105;115;32;39;32;77;79;78;84;72;32;39;46;39;10;77;79;78;84;72;32;60;45;32;39;74;97;110;39;32;124;32;39;74;97;110;117;97;114;121;39;32;124;32;39;70;101;98;39;32;124;32;39;70;101;98;114;117;97;114;121;39]%N (conf_case false no_hooks)
  [{| x_match := (Some true); x_ast := None; x_whole := false; x_errs := []; x_value := None; x_trace := None; x_input := [84;104;105;115;32;109;111;110;116;104;32;105;115;32;74;97;110;46]%N |}; {| x_match := (Some true); x_ast := None; x_whole := false; x_errs := []; x_value := None; x_trace := None; x_input := [84;104;105;115;32;109;111;110;116;104;32;105;115;32;74;97;110;117;97;114;121;46]%N |}; {| x_match := (Some false); x_ast := None; x_whole := false; x_errs := []; x_value := None; x_trace := None; x_input := [84;104;105;115;32;109;111;110;116;104;32;105;115;32;74;97;110;110;117;97;114;121;46]%N |}; {| x_match := (Some false); x_ast := None; x_whole := false; x_errs := []; x_value := None; x_trace := None; x_input := [84;104;105;115;32;109;111;110;116;104;32;105;115;32;46]%N |}]) = true.
Proof. vm_compute. reflexivity. Qed.
Example dictionary_dictionary_invalid_mixed_types : (conf_rejected true [] [83;84;65;82;84;32;60;45;32;39;84;104;105;115;32;109;111;110;116;104;32;105;115;32;39;32;77;79;78;84;72;32;39;46;39;10;77;79;78;84;72;32;60;45;32;39;74;97;110;39;32;124;32;39;74;97;110;117;97;114;121;39;32;124;32;91;97;45;122;93;43;32;124;32;39;70;101;98;39;32;124;32;39;70;101;98;114;117;97;114;121;39]%N) = true.
Proof. vm_compute. reflexivity. Qed.
Example dictionary_dictionary_choice_index : (conf_group true [] [83;84;65;82;84;32;60;45;32;39;84;104;105;115;32;109;111;110;116;104;32;105;115;32;39;32;77;79;78;84;72;32;39;46;39;10;77;79;78;84;72;32;60;45;32;39;74;97;110;39;32;124;32;39;74;97;110;117;97;114;121;39;32;124;32;39;70;101;98;39;32;124;32;39;70;101;98;114;117;97;114;121;39]%N (conf_case false {| h_act := [([77;79;78;84;72]%N, AChoice)]; h_enter := []; h_leave := []; h_pred := []; h_flag := false |})
  [{| x_match := (Some true); x_ast := None; x_whole := false; x_errs := []; x_value := (Some (2)%Z); x_trace := None; x_input := [84;104;105;115;32;109;111;110;116;104;32;105;115;32;70;101;98;46]%N |}]) = true.
Proof. vm_compute. reflexivity. Qed.
Example dictionary_dictionary_longest_match : (conf_group true [] [83;32;60;45;32;77;79;78;84;72;10;77;79;78;84;72;32;60;45;32;39;74;97;110;39;32;124;32;39;74;97;110;117;97;114;121;39;32;124;32;39;74;117;110;39;32;124;32;39;74;117;110;101;39;32;124;32;39;74;117;108;39;32;124;32;39;74;117;108;121;39]%N (conf_case false no_hooks)
  [{| x_match := (Some true); x_ast := None; x_whole := false; x_errs := []; x_value := None; x_trace := None; x_input := [74;97;110;117;97;114;121]%N |}; {| x_match := (Some true); x_ast := None; x_whole := false; x_errs := []; x_value := None; x_trace := None; x_input := [74;97;110]%N |}; {| x_match := (Some true); x_ast := None; x_whole := false; x_errs := []; x_value := None; x_trace := None; x_input := [74;117;110;101]%N |}]) = true.
Proof. vm_compute. reflexivity. Qed.
Example dictionary_precedence_pipe_binds_tighter_than_slash : (conf_group true [] [83;32;60;45;32;39;97;39;32;124;32;39;98;39;32;47;32;39;97;39;32;39;99;39;10]%N (conf_case false no_hooks)
  [{| x_match := (Some true); x_ast := None; x_whole := false; x_errs := []; x_value := None; x_trace := None; x_input := [97]%N |}; {| x_match := (Some true); x_ast := None; x_whole := false; x_errs := []; x_value := None; x_trace := None; x_input := [98]%N |}; {| x_match := (Some false); x_ast := None; x_whole := false; x_errs := []; x_value := None; x_trace := None; x_input := [97;99]%N |}; {| x_match := (Some false); x_ast := None; x_whole := false; x_errs := []; x_value := None; x_trace := None; x_input := [99]%N |}]) = true.
Proof. vm_compute. reflexivity. Qed.
Example dictionary_precedence_pipe_binds_tighter_than_sequence : (conf_group true [] [83;32;60;45;32;39;97;39;32;39;98;39;32;124;32;39;99;39;10]%N (conf_case false no_hooks)
  [{| x_match := (Some true); x_ast := None; x_whole := false; x_errs := []; x_value := None; x_trace := None; x_input := [97;98]%N |}; {| x_match := (Some true); x_ast := None; x_whole := false; x_errs := []; x_value := None; x_trace := None; x_input := [97;99]%N |}; {| x_match := (Some false); x_ast := None; x_whole := false; x_errs := []; x_value := None; x_trace := None; x_input := [99]%N |}; {| x_match := (Some false); x_ast := None; x_whole := false; x_errs := []; x_value := None; x_trace := None; x_input := [97]%N |}]) = true.
Proof. vm_compute. reflexivity. Qed.
Example dictionary_precedence_pure_dictionary : (conf_group true [] [83;32;60;45;32;39;97;39;32;124;32;39;98;98;39;32;124;32;39;99;99;99;39;10]%N (conf_case false no_hooks)
  [{| x_match := (Some true); x_ast := None; x_whole := false; x_errs := []; x_value := None; x_trace := None; x_input := [97]%N |}; {| x_match := (Some true); x_ast := None; x_whole := false; x_errs := []; x_value := None; x_trace := None; x_input := [98;98]%N |}; {| x_match := (Some true); x_ast := None; x_whole := false; x_errs := []; x_value := None; x_trace := None; x_input := [99;99;99]%N |}; {| x_match := (Some false); x_ast := None; x_whole := false; x_errs := []; x_value := None; x_trace := None; x_input := [98]%N |}]) = true.
Proof. vm_compute. reflexivity. Qed.
Example dictionary_precedence_dictionary_case_insensitive : (conf_group true [] [83;32;60;45;32;39;99;97;116;39;105;32;124;32;39;100;111;103;39;105;10]%N (conf_case false no_hooks)
  [{| x_match := (Some true); x_ast := None; x_whole := false; x_errs := []; x_value := None; x_trace := None; x_input := [99;97;116]%N |}; {| x_match := (Some true); x_ast := None; x_whole := false; x_errs := []; x_value := None; x_trace := None; x_input := [67;65;84]%N |}; {| x_match := (Some true); x_ast := None; x_whole := false; x_errs := []; x_value := None; x_trace := None; x_input := [68;111;103]%N |}; {| x_match := (Some false); x_ast := None; x_whole := false; x_errs := []; x_value := None; x_trace := None; x_input := [102;105;115;104]%N |}]) = true.
Proof. vm_compute. reflexivity. Qed.
Example dictionary_precedence_mixed_pipe_slash_chain : (conf_group true [] [83;32;60;45;32;39;97;39;32;124;32;39;98;39;32;47;32;39;99;39;32;124;32;39;100;39;10]%N (conf_case false no_hooks)
  [{| x_match := (Some true); x_ast := None; x_whole := false; x_errs := []; x_value := None; x_trace := None; x_input := [97]%N |}; {| x_match := (Some true); x_ast := None; x_whole := false; x_errs := []; x_value := None; x_trace := None; x_input := [98]%N |}; {| x_match := (Some true); x_ast := None; x_whole := false; x_errs := []; x_value := None; x_trace := None; x_input := [99]%N |}; {| x_match := (Some true); x_ast := None; x_whole := false; x_errs := []; x_value := None; x_trace := None; x_input := [100]%N |}; {| x_match := (Some false); x_ast := None; x_whole := false; x_errs := []; x_value := None; x_trace := None; x_input := [101]%N |}]) = true.
Proof. vm_compute. reflexivity. Qed.
Example dictionary_precedence_dictionary_ast : (conf_group true [] [83;32;60;45;32;40;39;97;39;32;124;32;39;98;39;41;32;67;32;47;32;68;10;67;32;60;45;32;60;32;39;99;39;32;62;10;68;32;60;45;32;60;32;39;100;39;32;62;10]%N (conf_ast false false)
  [{| x_match := (Some true); x_ast := (Some [43;32;83;47;48;10;32;32;45;32;67;32;40;99;41;10]%N); x_whole := false; x_errs := []; x_value := None; x_trace := None; x_input := [97;99]%N |}; {| x_match := (Some true); x_ast := (Some [43;32;83;47;48;10;32;32;45;32;67;32;40;99;41;10]%N); x_whole := false; x_errs := []; x_value := None; x_trace := None; x_input := [98;99]%N |}; {| x_match := (Some true); x_ast := (Some [43;32;83;47;49;10;32;32;45;32;68;32;40;100;41;10]%N); x_whole := false; x_errs := []; x_value := None; x_trace := None; x_input := [100]%N |}]) = true.
Proof. vm_compute. reflexivity. Qed.
Example first_set_basic_filtering : (conf_group true [] [83;32;60;45;32;39;104;101;108;108;111;39;32;47;32;39;119;111;114;108;100;39;32;47;32;39;102;111;111;39]%N (conf_case false no_hooks)
  [{| x_match := (Some true); x_ast := None; x_whole := false; x_errs := []; x_value := None; x_trace := None; x_input := [104;101;108;108;111]%N |}; {| x_match := (Some true); x_ast := None; x_whole := false; x_errs := []; x_value := None; x_trace := None; x_input := [119;111;114;108;100]%N |}; {| x_match := (Some true); x_ast := None; x_whole := false; x_errs := []; x_value := None; x_trace := None; x_input := [102;111;111]%N |}; {| x_match := (Some false); x_ast := None; x_whole := false; x_errs := []; x_value := None; x_trace := None; x_input := [98;97;114]%N |}]) = true.
Proof. vm_compute. reflexivity. Qed.
Example first_set_case_insensitive_literal : (conf_group true [] [83;32;60;45;32;39;83;69;76;69;67;84;39;105;32;47;32;39;73;78;83;69;82;84;39;105;32;47;32;39;85;80;68;65;84;69;39;105]%N (conf_case false no_hooks)
  [{| x_match := (Some true); x_ast := None; x_whole := false; x_errs := []; x_value := None; x_trace := None; x_input := [83;69;76;69;67;84]%N |}; {| x_match := (Some true); x_ast := None; x_whole := false; x_errs := []; x_value := None; x_trace := None; x_input := [115;101;108;101;99;116]%N |}; {| x_match := (Some true); x_ast := None; x_whole := false; x_errs := []; x_value := None; x_trace := None; x_input := [83;101;108;101;99;116]%N |}; {| x_match := (Some true); x_ast := None; x_whole := false; x_errs := []; x_value := None; x_trace := None; x_input := [73;78;83;69;82;84]%N |}; {| x_match := (Some true); x_ast := None; x_whole := false; x_errs := []; x_value := None; x_trace := None; x_input := [105;110;115;101;114;116]%N |}; {| x_match := (Some true); x_ast := None; x_whole := false; x_errs := []; x_value := None; x_trace := None; x_input := [85;80;68;65;84;69]%N |}; {| x_match := (Some true); x_ast := None; x_whole := false; x_errs := []; x_value := None; x_trace := None; x_input := [117;112;100;97;116;101]%N |}; {| x_match := (Some false); x_ast := None; x_whole := false; x_errs := []; x_value := None; x_trace := None; x_input := [68;69;76;69;84;69]%N |}]) = true.
Proof. vm_compute. reflexivity. Qed.
Example first_set_can_be_empty_not_skipped : (conf_group true [] [83;32;60;45;32;39;78;79;84;39;63;32;91;97;45;122;93;43]%N (conf_case false no_hooks)
  [{| x_match := (Some true); x_ast := None; x_whole := false; x_errs := []; x_value := None; x_trace := None; x_input := [78;79;84;97;98;99]%N |}; {| x_match := (Some true); x_ast := None; x_whole := false; x_errs := []; x_value := None; x_trace := None; x_input := [97;98;99]%N |}]) = true.
Proof. vm_compute. reflexivity. Qed.
Example first_set_any_character_not_skipped : (conf_group true [] [83;32;60;45;32;39;104;101;108;108;111;39;32;47;32;46]%N (conf_case false no_hooks)
  [{| x_match := (Some true); x_ast := None; x_whole := false; x_errs := []; x_value := None; x_trace := None; x_input := [104;101;108;108;111]%N |}; {| x_match := (Some true); x_ast := None; x_whole := false; x_errs := []; x_value := None; x_trace := None; x_input := [120]%N |}; {| x_match := (Some true); x_ast := None; x_whole := false; x_errs := []; x_value := None; x_trace := None; x_input := [104]%N |}]) = true.
Proof. vm_compute. reflexivity. Qed.
Example first_set_character_class : (conf_group true [] [83;32;60;45;32;91;48;45;57;93;43;32;47;32;91;97;45;122;93;43]%N (conf_case false no_hooks)
  [{| x_match := (Some true); x_ast := None; x_whole := false; x_errs := []; x_value := None; x_trace := None; x_input := [49;50;51]%N |}; {| x_match := (Some true); x_ast := None; x_whole := false; x_errs := []; x_value := None; x_trace := None; x_input := [97;98;99]%N |}; {| x_match := (Some false); x_ast := None; x_whole := false; x_errs := []; x_value := None; x_trace := None; x_input := [65;66;67]%N |}]) = true.
Proof. vm_compute. reflexivity. Qed.
Example first_set_negated_character_class : (conf_group true [] [83;32;60;45;32;39;104;101;108;108;111;39;32;47;32;91;94;48;45;57;93;43]%N (conf_case false no_hooks)
  [{| x_match := (Some true); x_ast := None; x_whole := false; x_errs := []; x_value := None; x_trace := None; x_input := [104;101;108;108;111]%N |}; {| x_match := (Some true); x_ast := None; x_whole := false; x_errs := []; x_value := None; x_trace := None; x_input := [97;98;99]%N |}; {| x_match := (Some false); x_ast := None; x_whole := false; x_errs := []; x_value := None; x_trace := None; x_input := [49;50;51]%N |}]) = true.
Proof. vm_compute. reflexivity. Qed.
Example first_set_recursive_rule : (conf_group true [] [69;88;80;82;32;60;45;32;84;69;82;77;32;40;39;43;39;32;84;69;82;77;41;42;10;84;69;82;77;32;60;45;32;70;65;67;84;79;82;32;40;39;42;39;32;70;65;67;84;79;82;41;42;10;70;65;67;84;79;82;32;60;45;32;39;40;39;32;69;88;80;82;32;39;41;39;32;47;32;78;85;77;66;69;82;10;78;85;77;66;69;82;32;60;45;32;91;48;45;57;93;43]%N (conf_case false no_hooks)
  [{| x_match := (Some true); x_ast := None; x_whole := false; x_errs := []; x_value := None; x_trace := None; x_input := [49;43;50;42;51]%N |}; {| x_match := (Some true); x_ast := None; x_whole := false; x_errs := []; x_value := None; x_trace := None; x_input := [40;49;43;50;41;42;51]%N |}; {| x_match := (Some false); x_ast := None; x_whole := false; x_errs := []; x_value := None; x_trace := None; x_input := [43;49]%N |}]) = true.
Proof. vm_compute. reflexivity. Qed.
Example first_set_many_alternatives : (conf_group true [] [83;32;60;45;32;75;87;10;75;87;32;60;45;32;39;97;108;112;104;97;39;32;47;32;39;98;101;116;97;39;32;47;32;39;103;97;109;109;97;39;32;47;32;39;100;101;108;116;97;39;32;47;32;39;101;112;115;105;108;111;110;39;32;47;32;39;122;101;116;97;39;32;47;32;39;101;116;97;39;32;47;32;39;116;104;101;116;97;39;32;47;32;39;105;111;116;97;39;32;47;32;39;107;97;112;112;97;39]%N (conf_case false no_hooks)
  [{| x_match := (Some true); x_ast := None; x_whole := false; x_errs := []; x_value := None; x_trace := None; x_input := [97;108;112;104;97]%N |}; {| x_match := (Some true); x_ast := None; x_whole := false; x_errs := []; x_value := None; x_trace := None; x_input := [107;97;112;112;97]%N |}; {| x_match := (Some true); x_ast := None; x_whole := false; x_errs := []; x_value := None; x_trace := None; x_input := [101;116;97]%N |}; {| x_match := (Some false); x_ast := None; x_whole := false; x_errs := []; x_value := None; x_trace := None; x_input := [108;97;109;98;100;97]%N |}]) = true.
Proof. vm_compute. reflexivity. Qed.
Example first_set_sequence_first_element : (conf_group true [] [83;32;60;45;32;39;83;69;76;69;67;84;39;32;78;65;77;69;32;47;32;39;73;78;83;69;82;84;39;32;78;65;77;69;10;78;65;77;69;32;60;45;32;60;32;91;97;45;122;93;43;32;62;10;37;119;104;105;116;101;115;112;97;99;101;32;60;45;32;91;32;93;42]%N (conf_case false no_hooks)
  [{| x_match := (Some true); x_ast := None; x_whole := false; x_errs := []; x_value := None; x_trace := None; x_input := [83;69;76;69;67;84;32;102;111;111]%N |}; {| x_match := (Some true); x_ast := None; x_whole := false; x_errs := []; x_value := None; x_trace := None; x_input := [73;78;83;69;82;84;32;98;97;114]%N |}; {| x_match := (Some false); x_ast := None; x_whole := false; x_errs := []; x_value := None; x_trace := None; x_input := [68;69;76;69;84;69;32;98;97;122]%N |}]) = true.
Proof. vm_compute. reflexivity. Qed.
Example first_set_sequence_optional_first : (conf_group true [] [83;32;60;45;32;39;78;79;84;39;63;32;91;97;45;122;93;43;32;47;32;91;48;45;57;93;43]%N (conf_case false no_hooks)
  [{| x_match := (Some true); x_ast := None; x_whole := false; x_errs := []; x_value := None; x_trace := None; x_input := [78;79;84;97;98;99]%N |}; {| x_match := (Some true); x_ast := None; x_whole := false; x_errs := []; x_value := None; x_trace := None; x_input := [97;98;99]%N |}; {| x_match := (Some true); x_ast := None; x_whole := false; x_errs := []; x_value := None; x_trace := None; x_input := [49;50;51]%N |}]) = true.
Proof. vm_compute. reflexivity. Qed.
Example first_set_packrat_compatibility : (conf_group true [] [83;32;60;45;32;83;84;77;84;43;10;83;84;77;84;32;60;45;32;39;105;102;39;32;47;32;39;102;111;114;39;32;47;32;39;119;104;105;108;101;39;32;47;32;73;68;10;73;68;32;60;45;32;60;32;91;97;45;122;93;43;32;62;10;37;119;104;105;116;101;115;112;97;99;101;32;60;45;32;91;32;92;110;93;42]%N (conf_case true no_hooks)
  [{| x_match := (Some true); x_ast := None; x_whole := false; x_errs := []; x_value := None; x_trace := None; x_input := [105;102;32;102;111;114;32;119;104;105;108;101;32;102;111;111;32;98;97;114]%N |}; {| x_match := (Some false); x_ast := None; x_whole := false; x_errs := []; x_value := None; x_trace := None; x_input := [49;50;51]%N |}]) = true.
Proof. vm_compute. reflexivity. Qed.
Example first_set_dictionary_operator : (conf_group true [] [83;32;60;45;32;39;97;108;112;104;97;39;32;124;32;39;98;101;116;97;39;32;124;32;39;103;97;109;109;97;39]%N (conf_case false no_hooks)
  [{| x_match := (Some true); x_ast := None; x_whole := false; x_errs := []; x_value := None; x_trace := None; x_input := [97;108;112;104;97]%N |}; {| x_match := (Some true); x_ast := None; x_whole := false; x_errs := []; x_value := None; x_trace := None; x_input := [98;101;116;97]%N |}; {| x_match := (Some true); x_ast := None; x_whole := false; x_errs := []; x_value := None; x_trace := None; x_input := [103;97;109;109;97]%N |}; {| x_match := (Some false); x_ast := None; x_whole := false; x_errs := []; x_value := None; x_trace := None; x_input := [100;101;108;116;97]%N |}]) = true.
Proof. vm_compute. reflexivity. Qed.
Example left_recursion_direct_left_recursion_compiles : (conf_accepted true [] [65;32;60;45;32;65;32;39;97;39;10;66;32;60;45;32;65;32;39;97;39]%N) = true.
Proof. vm_compute. reflexivity. Qed.
Example left_recursion_left_recursive_with_option_compiles : (conf_accepted true [] [65;32;60;45;32;39;97;39;32;47;32;39;98;39;63;32;66;32;39;99;39;10;66;32;60;45;32;65]%N) = true.
Proof. vm_compute. reflexivity. Qed.
Example left_recursion_left_recursive_with_zom_compiles : (conf_accepted true [] [65;32;60;45;32;39;97;39;42;32;65;42]%N) = true.
Proof. vm_compute. reflexivity. Qed.
Example left_recursion_left_recursive_with_zom_content_rule_compiles : (conf_accepted true [] [65;32;60;45;32;66;10;66;32;60;45;32;95;32;65;10;95;32;60;45;32;39;32;39;42]%N) = true.
Proof. vm_compute. reflexivity. Qed.
Example left_recursion_indirect_left_recursion : (conf_group true [] [65;32;60;45;32;66;32;39;97;39;10;66;32;60;45;32;67;32;39;98;39;10;67;32;60;45;32;65;32;39;99;39;32;47;32;39;100;39]%N (conf_case false no_hooks)
  [{| x_match := (Some true); x_ast := None; x_whole := false; x_errs := []; x_value := None; x_trace := None; x_input := [100;98;97]%N |}; {| x_match := (Some true); x_ast := None; x_whole := false; x_errs := []; x_value := None; x_trace := None; x_input := [100;98;97;99;98;97]%N |}]) = true.
Proof. vm_compute. reflexivity. Qed.
Example left_recursion_complex_indirect_left_recursion : (conf_group true [] [65;32;60;45;32;66;32;47;32;67;32;39;97;39;10;66;32;60;45;32;68;32;39;98;39;10;67;32;60;45;32;69;32;39;99;39;10;68;32;60;45;32;65;32;39;100;39;10;69;32;60;45;32;70;32;39;101;39;10;70;32;60;45;32;71;32;39;102;39;10;71;32;60;45;32;65;32;39;103;39;32;47;32;39;104;39]%N (conf_case false no_hooks)
  [{| x_match := (Some true); x_ast := None; x_whole := false; x_errs := []; x_value := None; x_trace := None; x_input := [104;102;101;99;97]%N |}; {| x_match := (Some true); x_ast := None; x_whole := false; x_errs := []; x_value := None; x_trace := None; x_input := [104;102;101;99;97;100;98]%N |}; {| x_match := (Some true); x_ast := None; x_whole := false; x_errs := []; x_value := None; x_trace := None; x_input := [104;102;101;99;97;100;98;103;102;101;99;97]%N |}; {| x_match := (Some true); x_ast := None; x_whole := false; x_errs := []; x_value := None; x_trace := None; x_input := [104;102;101;99;97;100;98;103;102;101;99;97;100;98]%N |}; {| x_match := (Some false); x_ast := None; x_whole := false; x_errs := []; x_value := None; x_trace := None; x_input := [] |}; {| x_match := (Some false); x_ast := None; x_whole := false; x_errs := []; x_value := None; x_trace := None; x_input := [104]%N |}; {| x_match := (Some false); x_ast := None; x_whole := false; x_errs := []; x_value := None; x_trace := None; x_input := [104;102]%N |}; {| x_match := (Some false); x_ast := None; x_whole := false; x_errs := []; x_value := None; x_trace := None; x_input := [97;98;99]%N |}]) = true.
Proof. vm_compute. reflexivity. Qed.
Example left_recursion_mutual_left_recursion : (conf_group true [] [65;32;60;45;32;66;32;39;120;39;32;47;32;39;97;39;10;66;32;60;45;32;65;32;39;121;39]%N (conf_case false no_hooks)
  [{| x_match := (Some true); x_ast := None; x_whole := false; x_errs := []; x_value := None; x_trace := None; x_input := [97]%N |}; {| x_match := (Some true); x_ast := None; x_whole := false; x_errs := []; x_value := None; x_trace := None; x_input := [97;121;120]%N |}; {| x_match := (Some true); x_ast := None; x_whole := false; x_errs := []; x_value := None; x_trace := None; x_input := [97;121;120;121;120]%N |}; {| x_match := (Some false); x_ast := None; x_whole := false; x_errs := []; x_value := None; x_trace := None; x_input := [] |}; {| x_match := (Some false); x_ast := None; x_whole := false; x_errs := []; x_value := None; x_trace := None; x_input := [98]%N |}; {| x_match := (Some false); x_ast := None; x_whole := false; x_errs := []; x_value := None; x_trace := None; x_input := [97;120]%N |}; {| x_match := (Some false); x_ast := None; x_whole := false; x_errs := []; x_value := None; x_trace := None; x_input := [97;121]%N |}]) = true.
Proof. vm_compute. reflexivity. Qed.
Example left_recursion_hidden_left_recursion_with_epsilon : (conf_group true [] [65;32;60;45;32;66;32;65;32;47;32;39;97;39;10;66;32;60;45;32;39;98;39;63]%N (conf_case false no_hooks)
  [{| x_match := (Some true); x_ast := None; x_whole := false; x_errs := []; x_value := None; x_trace := None; x_input := [97]%N |}; {| x_match := (Some true); x_ast := None; x_whole := false; x_errs := []; x_value := None; x_trace := None; x_input := [98;97]%N |}; {| x_match := (Some true); x_ast := None; x_whole := false; x_errs := []; x_value := None; x_trace := None; x_input := [98;98;97]%N |}; {| x_match := (Some true); x_ast := None; x_whole := false; x_errs := []; x_value := None; x_trace := None; x_input := [98;98;98;97]%N |}; {| x_match := (Some false); x_ast := None; x_whole := false; x_errs := []; x_value := None; x_trace := None; x_input := [] |}; {| x_match := (Some false); x_ast := None; x_whole := false; x_errs := []; x_value := None; x_trace := None; x_input := [98]%N |}; {| x_match := (Some false); x_ast := None; x_whole := false; x_errs := []; x_value := None; x_trace := None; x_input := [97;98]%N |}; {| x_match := (Some false); x_ast := None; x_whole := false; x_errs := []; x_value := None; x_trace := None; x_input := [98;98]%N |}]) = true.
Proof. vm_compute. reflexivity. Qed.
Example left_recursion_deep_indirect_epsilon : (conf_group true [] [65;32;60;45;32;66;10;66;32;60;45;32;67;10;67;32;60;45;32;68;63;32;65;32;47;32;39;120;39;10;68;32;60;45;32;39;120;39]%N (conf_case false no_hooks)
  [{| x_match := (Some true); x_ast := None; x_whole := false; x_errs := []; x_value := None; x_trace := None; x_input := [120]%N |}; {| x_match := (Some true); x_ast := None; x_whole := false; x_errs := []; x_value := None; x_trace := None; x_input := [120;120]%N |}]) = true.
Proof. vm_compute. reflexivity. Qed.
Example left_recursion_predicate_epsilon : (conf_group true [] [65;32;60;45;32;38;66;32;65;32;47;32;39;97;39;10;66;32;60;45;32;39;98;39;63]%N (conf_case false no_hooks)
  [{| x_match := (Some true); x_ast := None; x_whole := false; x_errs := []; x_value := None; x_trace := None; x_input := [97]%N |}]) = true.
Proof. vm_compute. reflexivity. Qed.
Example left_recursion_complex_choice_epsilon : (conf_group true [] [65;32;60;45;32;66;32;47;32;67;10;66;32;60;45;32;68;63;32;65;32;39;120;39;10;67;32;60;45;32;39;121;39;10;68;32;60;45;32;39;39]%N (conf_case false no_hooks)
  [{| x_match := (Some true); x_ast := None; x_whole := false; x_errs := []; x_value := None; x_trace := None; x_input := [121]%N |}; {| x_match := (Some true); x_ast := None; x_whole := false; x_errs := []; x_value := None; x_trace := None; x_input := [121;120]%N |}; {| x_match := (Some true); x_ast := None; x_whole := false; x_errs := []; x_value := None; x_trace := None; x_input := [121;120;120]%N |}]) = true.
Proof. vm_compute. reflexivity. Qed.
Example left_recursion_complex_sequence_epsilon : (conf_group true [] [65;32;60;45;32;66;32;67;32;68;32;65;32;47;32;39;97;39;10;66;32;60;45;32;39;98;39;63;10;67;32;60;45;32;39;99;39;42;10;68;32;60;45;32;39;39]%N (conf_case false no_hooks)
  [{| x_match := (Some true); x_ast := None; x_whole := false; x_errs := []; x_value := None; x_trace := None; x_input := [97]%N |}; {| x_match := (Some true); x_ast := None; x_whole := false; x_errs := []; x_value := None; x_trace := None; x_input := [98;97]%N |}; {| x_match := (Some true); x_ast := None; x_whole := false; x_errs := []; x_value := None; x_trace := None; x_input := [98;99;97]%N |}; {| x_match := (Some true); x_ast := None; x_whole := false; x_errs := []; x_value := None; x_trace := None; x_input := [98;99;99;97]%N |}]) = true.
Proof. vm_compute. reflexivity. Qed.
Example left_recursion_cross_reference_epsilon : (conf_group true [] [65;32;60;45;32;66;32;65;32;47;32;39;97;39;10;66;32;60;45;32;67;32;47;32;68;10;67;32;60;45;32;69;10;68;32;60;45;32;70;10;69;32;60;45;32;39;101;39;63;10;70;32;60;45;32;39;102;39;42]%N (conf_case false no_hooks)
  [{| x_match := (Some true); x_ast := None; x_whole := false; x_errs := []; x_value := None; x_trace := None; x_input := [97]%N |}; {| x_match := (Some true); x_ast := None; x_whole := false; x_errs := []; x_value := None; x_trace := None; x_input := [101;97]%N |}; {| x_match := (Some false); x_ast := None; x_whole := false; x_errs := []; x_value := None; x_trace := None; x_input := [102;97]%N |}]) = true.
Proof. vm_compute. reflexivity. Qed.
Example left_recursion_pure_epsilon_left_recursion : (conf_group true [] [65;32;60;45;32;65;32;47;32;39;39]%N (conf_case false no_hooks)
  [{| x_match := (Some true); x_ast := None; x_whole := false; x_errs := []; x_value := None; x_trace := None; x_input := [] |}; {| x_match := (Some false); x_ast := None; x_whole := false; x_errs := []; x_value := None; x_trace := None; x_input := [97]%N |}]) = true.
Proof. vm_compute. reflexivity. Qed.
Example left_recursion_direct_left_recursion_no_alternatives : (conf_group true [] [65;32;60;45;32;65]%N (conf_case false no_hooks)
  [{| x_match := (Some false); x_ast := None; x_whole := false; x_errs := []; x_value := None; x_trace := None; x_input := [] |}; {| x_match := (Some false); x_ast := None; x_whole := false; x_errs := []; x_value := None; x_trace := None; x_input := [97]%N |}]) = true.
Proof. vm_compute. reflexivity. Qed.
Example left_recursion_mutual_recursion_with_epsilon : (conf_group true [] [65;32;60;45;32;66;32;47;32;39;39;10;66;32;60;45;32;65;32;47;32;39;120;39]%N (conf_case false no_hooks)
  [{| x_match := (Some true); x_ast := None; x_whole := false; x_errs := []; x_value := None; x_trace := None; x_input := [] |}; {| x_match := (Some true); x_ast := None; x_whole := false; x_errs := []; x_value := None; x_trace := None; x_input := [120]%N |}]) = true.
Proof. vm_compute. reflexivity. Qed.
Example left_recursion_diamond_dependency_epsilon : (conf_group true [] [65;32;60;45;32;66;32;47;32;67;10;66;32;60;45;32;68;32;65;32;39;98;39;10;67;32;60;45;32;68;32;65;32;39;99;39;10;68;32;60;45;32;39;120;39;63]%N (conf_case false no_hooks)
  [{| x_match := (Some false); x_ast := None; x_whole := false; x_errs := []; x_value := None; x_trace := None; x_input := [] |}; {| x_match := (Some false); x_ast := None; x_whole := false; x_errs := []; x_value := None; x_trace := None; x_input := [97]%N |}]) = true.
Proof. vm_compute. reflexivity. Qed.
Example left_recursion_class_epsilon : (conf_group true [] [65;32;60;45;32;91;97;45;122;93;63;32;65;32;47;32;39;120;39]%N (conf_case false no_hooks)
  [{| x_match := (Some true); x_ast := None; x_whole := false; x_errs := []; x_value := None; x_trace := None; x_input := [120]%N |}; {| x_match := (Some true); x_ast := None; x_whole := false; x_errs := []; x_value := None; x_trace := None; x_input := [97;120]%N |}; {| x_match := (Some true); x_ast := None; x_whole := false; x_errs := []; x_value := None; x_trace := None; x_input := [97;98;120]%N |}]) = true.
Proof. vm_compute. reflexivity. Qed.
Example left_recursion_epsilon_with_complex_predicate : (conf_group true [] [65;32;60;45;32;38;66;32;33;67;32;65;32;47;32;39;97;39;10;66;32;60;45;32;39;39;10;67;32;60;45;32;39;99;39;63]%N (conf_case false no_hooks)
  [{| x_match := (Some true); x_ast := None; x_whole := false; x_errs := []; x_value := None; x_trace := None; x_input := [97]%N |}]) = true.
Proof. vm_compute. reflexivity. Qed.
Example left_recursion_arithmetic_expressions : (conf_group true [] [101;120;112;114;32;60;45;32;101;120;112;114;32;39;43;39;32;116;101;114;109;32;47;32;101;120;112;114;32;39;45;39;32;116;101;114;109;32;47;32;116;101;114;109;10;116;101;114;109;32;60;45;32;116;101;114;109;32;39;42;39;32;102;97;99;116;111;114;32;47;32;116;101;114;109;32;39;47;39;32;102;97;99;116;111;114;32;47;32;102;97;99;116;111;114;10;102;97;99;116;111;114;32;60;45;32;39;40;39;32;101;120;112;114;32;39;41;39;32;47;32;110;117;109;98;101;114;10;110;117;109;98;101;114;32;60;45;32;60;32;91;48;45;57;93;43;32;62;10;37;119;104;105;116;101;115;112;97;99;101;32;60;45;32;91;32;92;116;93;42]%N (conf_case false {| h_act := [([110;117;109;98;101;114]%N, ANumber); ([102;97;99;116;111;114]%N, APass 0); ([116;101;114;109]%N, ACases [(0, (Mul, 0, 1)); (1, (Div, 0, 1))] 0); ([101;120;112;114]%N, ACases [(0, (Add, 0, 1)); (1, (Sub, 0, 1))] 0)]; h_enter := []; h_leave := []; h_pred := []; h_flag := false |})
  [{| x_match := (Some true); x_ast := None; x_whole := false; x_errs := []; x_value := (Some (-10)%Z); x_trace := None; x_input := [49;43;50;42;51;45;52;42;53;43;54;47;50]%N |}; {| x_match := (Some true); x_ast := None; x_whole := false; x_errs := []; x_value := (Some (-4)%Z); x_trace := None; x_input := [49;45;50;45;51]%N |}; {| x_match := (Some true); x_ast := None; x_whole := false; x_errs := []; x_value := (Some (1)%Z); x_trace := None; x_input := [56;47;52;47;50]%N |}]) = true.
Proof. vm_compute. reflexivity. Qed.
Example left_recursion_arithmetic_expressions_with_ast : (conf_group true [] [101;120;112;114;32;60;45;32;101;120;112;114;32;39;43;39;32;116;101;114;109;32;47;32;101;120;112;114;32;39;45;39;32;116;101;114;109;32;47;32;116;101;114;109;10;116;101;114;109;32;60;45;32;116;101;114;109;32;39;42;39;32;102;97;99;116;111;114;32;47;32;116;101;114;109;32;39;47;39;32;102;97;99;116;111;114;32;47;32;102;97;99;116;111;114;10;102;97;99;116;111;114;32;60;45;32;39;40;39;32;101;120;112;114;32;39;41;39;32;47;32;110;117;109;98;101;114;10;110;117;109;98;101;114;32;60;45;32;60;32;91;48;45;57;93;43;32;62;10;37;119;104;105;116;101;115;112;97;99;101;32;60;45;32;91;32;92;116;93;42]%N (conf_ast false true)
  [{| x_match := (Some true); x_ast := (Some [43;32;101;120;112;114;47;48;10;32;32;43;32;101;120;112;114;47;49;10;32;32;32;32;43;32;101;120;112;114;47;48;10;32;32;32;32;32;32;45;32;101;120;112;114;47;50;91;110;117;109;98;101;114;93;32;40;49;41;10;32;32;32;32;32;32;43;32;116;101;114;109;47;48;10;32;32;32;32;32;32;32;32;45;32;116;101;114;109;47;50;91;110;117;109;98;101;114;93;32;40;50;41;10;32;32;32;32;32;32;32;32;45;32;102;97;99;116;111;114;47;49;91;110;117;109;98;101;114;93;32;40;51;41;10;32;32;32;32;43;32;116;101;114;109;47;48;10;32;32;32;32;32;32;45;32;116;101;114;109;47;50;91;110;117;109;98;101;114;93;32;40;52;41;10;32;32;32;32;32;32;45;32;102;97;99;116;111;114;47;49;91;110;117;109;98;101;114;93;32;40;53;41;10;32;32;43;32;116;101;114;109;47;49;10;32;32;32;32;45;32;116;101;114;109;47;50;91;110;117;109;98;101;114;93;32;40;54;41;10;32;32;32;32;45;32;102;97;99;116;111;114;47;49;91;110;117;109;98;101;114;93;32;40;50;41;10]%N); x_whole := false; x_errs := []; x_value := None; x_trace := None; x_input := [49;43;50;42;51;45;52;42;53;43;54;47;50]%N |}]) = true.
Proof. vm_compute. reflexivity. Qed.
Example left_recursion_left_recursion_disabled : (conf_rejected false [] [101;120;112;114;32;60;45;32;101;120;112;114;32;39;43;39;32;116;101;114;109;32;47;32;101;120;112;114;32;39;45;39;32;116;101;114;109;32;47;32;116;101;114;109;10;116;101;114;109;32;60;45;32;116;101;114;109;32;39;42;39;32;102;97;99;116;111;114;32;47;32;116;101;114;109;32;39;47;39;32;102;97;99;116;111;114;32;47;32;102;97;99;116;111;114;10;102;97;99;116;111;114;32;60;45;32;39;40;39;32;101;120;112;114;32;39;41;39;32;47;32;110;117;109;98;101;114;10;110;117;109;98;101;114;32;60;45;32;60;32;91;48;45;57;93;43;32;62;10;37;119;104;105;116;101;115;112;97;99;101;32;60;45;32;91;32;92;116;93;42]%N) = true.
Proof. vm_compute. reflexivity. Qed.
Example left_recursion_lr_detection_disabled_direct : (conf_rejected false [] [65;32;60;45;32;65;32;39;97;39;10;66;32;60;45;32;65;32;39;97;39]%N) = true.
Proof. vm_compute. reflexivity. Qed.
Example left_recursion_lr_detection_disabled_option : (conf_rejected false [] [65;32;60;45;32;39;97;39;32;47;32;39;98;39;63;32;66;32;39;99;39;10;66;32;60;45;32;65]%N) = true.
Proof. vm_compute. reflexivity. Qed.
Example left_recursion_lr_detection_disabled_zom : (conf_rejected false [] [65;32;60;45;32;39;97;39;42;32;65;42]%N) = true.
Proof. vm_compute. reflexivity. Qed.
Example left_recursion_lr_detection_disabled_zom_content : (conf_rejected false [] [65;32;60;45;32;66;10;66;32;60;45;32;95;32;65;10;95;32;60;45;32;39;32;39;42]%N) = true.
Proof. vm_compute. reflexivity. Qed.
Example left_recursion_lr_detection_disabled_empty_string : (conf_rejected false [] [65;32;60;45;32;39;39;32;65]%N) = true.
Proof. vm_compute. reflexivity. Qed.
Example left_recursion_monkey_language_precedence : (conf_group true [] [80;82;79;71;82;65;77;32;60;45;32;83;84;65;84;69;77;69;78;84;83;10;10;83;84;65;84;69;77;69;78;84;83;32;60;45;32;40;83;84;65;84;69;77;69;78;84;32;39;59;39;63;41;42;10;83;84;65;84;69;77;69;78;84;32;60;45;32;65;83;83;73;71;78;77;69;78;84;32;47;32;82;69;84;85;82;78;32;47;32;69;88;80;82;69;83;83;73;79;78;95;83;84;65;84;69;77;69;78;84;10;10;65;83;83;73;71;78;77;69;78;84;32;60;45;32;39;108;101;116;39;32;73;68;69;78;84;73;70;73;69;82;32;39;61;39;32;69;88;80;82;69;83;83;73;79;78;10;82;69;84;85;82;78;32;60;45;32;39;114;101;116;117;114;110;39;32;69;88;80;82;69;83;83;73;79;78;10;69;88;80;82;69;83;83;73;79;78;95;83;84;65;84;69;77;69;78;84;32;60;45;32;69;88;80;82;69;83;83;73;79;78;10;10;69;88;80;82;69;83;83;73;79;78;32;60;45;32;73;78;70;73;88;95;69;88;80;82;40;80;82;69;70;73;88;95;69;88;80;82;44;32;73;78;70;73;88;95;79;80;69;41;10;73;78;70;73;88;95;69;88;80;82;40;65;84;79;77;44;32;79;80;69;41;32;60;45;32;65;84;79;77;32;40;79;80;69;32;65;84;79;77;41;42;32;123;10;32;32;112;114;101;99;101;100;101;110;99;101;10;32;32;32;32;76;32;61;61;32;33;61;10;32;32;32;32;76;32;60;32;62;10;32;32;32;32;76;32;43;32;45;10;32;32;32;32;76;32;42;32;47;10;125;10;10;73;70;32;60;45;32;39;105;102;39;32;39;40;39;32;69;88;80;82;69;83;83;73;79;78;32;39;41;39;32;66;76;79;67;75;32;40;39;101;108;115;101;39;32;66;76;79;67;75;41;63;10;10;70;85;78;67;84;73;79;78;32;60;45;32;39;102;110;39;32;39;40;39;32;80;65;82;65;77;69;84;69;82;83;32;39;41;39;32;66;76;79;67;75;10;80;65;82;65;77;69;84;69;82;83;32;60;45;32;76;73;83;84;40;73;68;69;78;84;73;70;73;69;82;44;32;39;44;39;41;10;10;66;76;79;67;75;32;60;45;32;39;123;39;32;83;84;65;84;69;77;69;78;84;83;32;39;125;39;10;10;67;65;76;76;32;60;45;32;80;82;73;77;65;82;89;32;40;65;82;71;85;77;69;78;84;83;32;47;32;73;78;68;69;88;41;42;10;65;82;71;85;77;69;78;84;83;32;60;45;32;39;40;39;32;76;73;83;84;40;69;88;80;82;69;83;83;73;79;78;44;32;39;44;39;41;32;39;41;39;10;73;78;68;69;88;32;60;45;32;39;91;39;32;69;88;80;82;69;83;83;73;79;78;32;39;93;39;10;10;80;82;69;70;73;88;95;69;88;80;82;32;60;45;32;80;82;69;70;73;88;95;79;80;69;42;32;67;65;76;76;10;80;82;73;77;65;82;89;32;60;45;32;73;70;32;47;32;70;85;78;67;84;73;79;78;32;47;32;65;82;82;65;89;32;47;32;72;65;83;72;32;47;32;73;78;84;69;71;69;82;32;47;32;66;79;79;76;69;65;78;32;47;32;78;85;76;76;32;47;32;73;68;69;78;84;73;70;73;69;82;32;47;32;83;84;82;73;78;71;32;47;32;39;40;39;32;69;88;80;82;69;83;83;73;79;78;32;39;41;39;10;10;65;82;82;65;89;32;60;45;32;39;91;39;32;76;73;83;84;40;69;88;80;82;69;83;83;73;79;78;44;32;39;44;39;41;32;39;93;39;10;10;72;65;83;72;32;60;45;32;39;123;39;32;76;73;83;84;40;72;65;83;72;95;80;65;73;82;44;32;39;44;39;41;32;39;125;39;10;72;65;83;72;95;80;65;73;82;32;60;45;32;69;88;80;82;69;83;83;73;79;78;32;39;58;39;32;69;88;80;82;69;83;83;73;79;78;10;10;73;68;69;78;84;73;70;73;69;82;32;60;45;32;60;32;91;97;45;122;65;45;90;93;43;32;62;10;73;78;84;69;71;69;82;32;60;45;32;60;32;91;48;45;57;93;43;32;62;10;83;84;82;73;78;71;32;60;45;32;60;32;91;34;93;32;60;32;40;33;91;34;93;32;46;41;42;32;62;32;91;34;93;32;62;10;66;79;79;76;69;65;78;32;60;45;32;39;116;114;117;101;39;32;47;32;39;102;97;108;115;101;39;10;78;85;76;76;32;60;45;32;39;110;117;108;108;39;10;80;82;69;70;73;88;95;79;80;69;32;60;45;32;60;32;91;45;33;93;32;62;10;73;78;70;73;88;95;79;80;69;32;60;45;32;60;32;91;45;43;47;42;60;62;93;32;47;32;39;61;61;39;32;47;32;39;33;61;39;32;62;10;10;75;69;89;87;79;82;68;32;60;45;32;39;110;117;108;108;39;32;124;32;39;116;114;117;101;39;32;124;32;39;102;97;108;115;101;39;32;124;32;39;108;101;116;39;32;124;32;39;114;101;116;117;114;110;39;32;124;32;39;105;102;39;32;124;32;39;101;108;115;101;39;32;124;32;39;102;110;39;10;10;76;73;83;84;40;73;84;69;77;44;32;68;69;76;77;41;32;60;45;32;40;73;84;69;77;32;40;126;68;69;76;77;32;73;84;69;77;41;42;41;63;10;10;76;73;78;69;95;67;79;77;77;69;78;84;32;60;45;32;39;47;47;39;32;40;33;76;73;78;69;95;69;78;68;32;46;41;42;32;38;76;73;78;69;95;69;78;68;10;76;73;78;69;95;69;78;68;32;60;45;32;39;92;114;92;110;39;32;47;32;39;92;114;39;32;47;32;39;92;110;39;32;47;32;33;46;10;10;37;119;104;105;116;101;115;112;97;99;101;32;60;45;32;40;91;32;92;116;92;114;92;110;93;43;32;47;32;76;73;78;69;95;67;79;77;77;69;78;84;41;42;10;37;119;111;114;100;32;60;45;32;91;97;45;122;65;45;90;93;43]%N (conf_case false no_hooks)
  [{| x_match := (Some true); x_ast := None; x_whole := false; x_errs := []; x_value := None; x_trace := None; x_input := [108;101;116;32;102;105;98;111;110;97;99;99;105;32;61;32;102;110;40;120;41;32;123;10;32;32;105;102;32;40;120;32;61;61;32;48;41;32;123;10;32;32;32;32;48;10;32;32;125;32;101;108;115;101;32;123;10;32;32;32;32;105;102;32;40;120;32;61;61;32;49;41;32;123;10;32;32;32;32;32;32;114;101;116;117;114;110;32;49;59;10;32;32;32;32;125;32;101;108;115;101;32;123;10;32;32;32;32;32;32;102;105;98;111;110;97;99;99;105;40;120;32;45;32;49;41;32;43;32;102;105;98;111;110;97;99;99;105;40;120;32;45;32;50;41;59;10;32;32;32;32;125;10;32;32;125;10;125;59;10;10;112;117;116;115;40;102;105;98;111;110;97;99;99;105;40;51;53;41;41;59;10]%N |}; {| x_match := (Some true); x_ast := None; x_whole := false; x_errs := []; x_value := None; x_trace := None; x_input := [47;47;32;96;110;101;119;65;100;100;101;114;96;32;114;101;116;117;114;110;115;32;97;32;99;108;111;115;117;114;101;10;108;101;116;32;110;101;119;65;100;100;101;114;32;61;32;102;110;40;97;44;32;98;41;32;123;10;32;32;32;32;102;110;40;99;41;32;123;32;97;32;43;32;98;32;43;32;99;32;125;59;10;125;59;10;10;108;101;116;32;97;100;100;101;114;32;61;32;110;101;119;65;100;100;101;114;40;49;44;32;50;41;59;10;10;112;117;116;115;40;97;100;100;101;114;40;56;41;41;59;10]%N |}]) = true.
Proof. vm_compute. reflexivity. Qed.
Example left_recursion_monkey_language_left_recursion : (conf_group true [] [80;82;79;71;82;65;77;32;60;45;32;83;84;65;84;69;77;69;78;84;83;10;10;83;84;65;84;69;77;69;78;84;83;32;60;45;32;40;83;84;65;84;69;77;69;78;84;32;39;59;39;63;41;42;10;83;84;65;84;69;77;69;78;84;32;60;45;32;65;83;83;73;71;78;77;69;78;84;32;47;32;82;69;84;85;82;78;32;47;32;69;88;80;82;69;83;83;73;79;78;95;83;84;65;84;69;77;69;78;84;10;10;65;83;83;73;71;78;77;69;78;84;32;60;45;32;39;108;101;116;39;32;73;68;69;78;84;73;70;73;69;82;32;39;61;39;32;69;88;80;82;69;83;83;73;79;78;10;82;69;84;85;82;78;32;60;45;32;39;114;101;116;117;114;110;39;32;69;88;80;82;69;83;83;73;79;78;10;69;88;80;82;69;83;83;73;79;78;95;83;84;65;84;69;77;69;78;84;32;60;45;32;69;88;80;82;69;83;83;73;79;78;10;10;69;88;80;82;69;83;83;73;79;78;32;60;45;32;108;111;103;105;99;97;108;95;101;120;112;114;10;108;111;103;105;99;97;108;95;101;120;112;114;32;60;45;32;108;111;103;105;99;97;108;95;101;120;112;114;32;108;111;103;105;99;97;108;95;111;112;32;101;113;117;97;108;105;116;121;95;101;120;112;114;32;47;32;101;113;117;97;108;105;116;121;95;101;120;112;114;10;101;113;117;97;108;105;116;121;95;101;120;112;114;32;60;45;32;101;113;117;97;108;105;116;121;95;101;120;112;114;32;101;113;117;97;108;105;116;121;95;111;112;32;99;111;109;112;97;114;105;115;111;110;95;101;120;112;114;32;47;32;99;111;109;112;97;114;105;115;111;110;95;101;120;112;114;10;99;111;109;112;97;114;105;115;111;110;95;101;120;112;114;32;60;45;32;99;111;109;112;97;114;105;115;111;110;95;101;120;112;114;32;99;111;109;112;97;114;105;115;111;110;95;111;112;32;97;100;100;105;116;105;118;101;95;101;120;112;114;32;47;32;97;100;100;105;116;105;118;101;95;101;120;112;114;10;97;100;100;105;116;105;118;101;95;101;120;112;114;32;60;45;32;97;100;100;105;116;105;118;101;95;101;120;112;114;32;97;100;100;105;116;105;118;101;95;111;112;32;109;117;108;116;105;112;108;105;99;97;116;105;118;101;95;101;120;112;114;32;47;32;109;117;108;116;105;112;108;105;99;97;116;105;118;101;95;101;120;112;114;10;109;117;108;116;105;112;108;105;99;97;116;105;118;101;95;101;120;112;114;32;60;45;32;109;117;108;116;105;112;108;105;99;97;116;105;118;101;95;101;120;112;114;32;109;117;108;116;105;112;108;105;99;97;116;105;118;101;95;111;112;32;112;114;101;102;105;120;95;101;120;112;114;32;47;32;112;114;101;102;105;120;95;101;120;112;114;10;112;114;101;102;105;120;95;101;120;112;114;32;60;45;32;80;82;69;70;73;88;95;79;80;69;42;32;112;111;115;116;102;105;120;95;101;120;112;114;10;112;111;115;116;102;105;120;95;101;120;112;114;32;60;45;32;112;111;115;116;102;105;120;95;101;120;112;114;32;40;65;82;71;85;77;69;78;84;83;32;47;32;73;78;68;69;88;41;32;47;32;112;114;105;109;97;114;121;95;101;120;112;114;10;112;114;105;109;97;114;121;95;101;120;112;114;32;60;45;32;73;70;32;47;32;70;85;78;67;84;73;79;78;32;47;32;65;82;82;65;89;32;47;32;72;65;83;72;32;47;32;73;78;84;69;71;69;82;32;47;32;66;79;79;76;69;65;78;32;47;32;78;85;76;76;32;47;32;73;68;69;78;84;73;70;73;69;82;32;47;32;83;84;82;73;78;71;32;47;32;39;40;39;32;69;88;80;82;69;83;83;73;79;78;32;39;41;39;10;10;108;111;103;105;99;97;108;95;111;112;32;60;45;32;39;38;38;39;32;47;32;39;124;124;39;10;101;113;117;97;108;105;116;121;95;111;112;32;60;45;32;39;61;61;39;32;47;32;39;33;61;39;10;99;111;109;112;97;114;105;115;111;110;95;111;112;32;60;45;32;39;60;61;39;32;47;32;39;62;61;39;32;47;32;39;60;39;32;47;32;39;62;39;10;97;100;100;105;116;105;118;101;95;111;112;32;60;45;32;39;43;39;32;47;32;39;45;39;10;109;117;108;116;105;112;108;105;99;97;116;105;118;101;95;111;112;32;60;45;32;39;42;39;32;47;32;39;47;39;10;10;73;70;32;60;45;32;39;105;102;39;32;39;40;39;32;69;88;80;82;69;83;83;73;79;78;32;39;41;39;32;66;76;79;67;75;32;40;39;101;108;115;101;39;32;66;76;79;67;75;41;63;10;10;70;85;78;67;84;73;79;78;32;60;45;32;39;102;110;39;32;39;40;39;32;80;65;82;65;77;69;84;69;82;83;32;39;41;39;32;66;76;79;67;75;10;80;65;82;65;77;69;84;69;82;83;32;60;45;32;76;73;83;84;40;73;68;69;78;84;73;70;73;69;82;44;32;39;44;39;41;10;10;66;76;79;67;75;32;60;45;32;39;123;39;32;83;84;65;84;69;77;69;78;84;83;32;39;125;39;10;10;65;82;71;85;77;69;78;84;83;32;60;45;32;39;40;39;32;76;73;83;84;40;69;88;80;82;69;83;83;73;79;78;44;32;39;44;39;41;32;39;41;39;10;73;78;68;69;88;32;60;45;32;39;91;39;32;69;88;80;82;69;83;83;73;79;78;32;39;93;39;10;10;65;82;82;65;89;32;60;45;32;39;91;39;32;76;73;83;84;40;69;88;80;82;69;83;83;73;79;78;44;32;39;44;39;41;32;39;93;39;10;10;72;65;83;72;32;60;45;32;39;123;39;32;76;73;83;84;40;72;65;83;72;95;80;65;73;82;44;32;39;44;39;41;32;39;125;39;10;72;65;83;72;95;80;65;73;82;32;60;45;32;69;88;80;82;69;83;83;73;79;78;32;39;58;39;32;69;88;80;82;69;83;83;73;79;78;10;10;73;68;69;78;84;73;70;73;69;82;32;60;45;32;33;75;69;89;87;79;82;68;32;60;32;91;97;45;122;65;45;90;95;93;91;97;45;122;65;45;90;48;45;57;95;93;42;32;62;10;73;78;84;69;71;69;82;32;60;45;32;60;32;91;48;45;57;93;43;32;62;10;83;84;82;73;78;71;32;60;45;32;60;32;91;34;93;32;40;33;91;34;93;32;46;41;42;32;91;34;93;32;62;10;66;79;79;76;69;65;78;32;60;45;32;39;116;114;117;101;39;32;47;32;39;102;97;108;115;101;39;10;78;85;76;76;32;60;45;32;39;110;117;108;108;39;10;80;82;69;70;73;88;95;79;80;69;32;60;45;32;60;32;91;45;33;93;32;62;10;10;75;69;89;87;79;82;68;32;60;45;32;39;110;117;108;108;39;32;47;32;39;116;114;117;101;39;32;47;32;39;102;97;108;115;101;39;32;47;32;39;108;101;116;39;32;47;32;39;114;101;116;117;114;110;39;32;47;32;39;105;102;39;32;47;32;39;101;108;115;101;39;32;47;32;39;102;110;39;10;10;76;73;83;84;40;73;84;69;77;44;32;68;69;76;77;41;32;60;45;32;40;73;84;69;77;32;40;126;68;69;76;77;32;73;84;69;77;41;42;41;63;10;10;76;73;78;69;95;67;79;77;77;69;78;84;32;60;45;32;39;47;47;39;32;40;33;76;73;78;69;95;69;78;68;32;46;41;42;32;38;76;73;78;69;95;69;78;68;10;76;73;78;69;95;69;78;68;32;60;45;32;39;92;114;92;110;39;32;47;32;39;92;114;39;32;47;32;39;92;110;39;32;47;32;33;46;10;10;37;119;104;105;116;101;115;112;97;99;101;32;60;45;32;40;91;32;92;116;92;114;92;110;93;43;32;47;32;76;73;78;69;95;67;79;77;77;69;78;84;41;42;10;37;119;111;114;100;32;60;45;32;91;97;45;122;65;45;90;95;93;91;97;45;122;65;45;90;48;45;57;95;93;42]%N (conf_case false no_hooks)
  [{| x_match := (Some true); x_ast := None; x_whole := false; x_errs := []; x_value := None; x_trace := None; x_input := [108;101;116;32;102;105;98;111;110;97;99;99;105;32;61;32;102;110;40;120;41;32;123;10;32;32;105;102;32;40;120;32;61;61;32;48;41;32;123;10;32;32;32;32;48;10;32;32;125;32;101;108;115;101;32;123;10;32;32;32;32;105;102;32;40;120;32;61;61;32;49;41;32;123;10;32;32;32;32;32;32;114;101;116;117;114;110;32;49;59;10;32;32;32;32;125;32;101;108;115;101;32;123;10;32;32;32;32;32;32;102;105;98;111;110;97;99;99;105;40;120;32;45;32;49;41;32;43;32;102;105;98;111;110;97;99;99;105;40;120;32;45;32;50;41;59;10;32;32;32;32;125;10;32;32;125;10;125;59;10;10;112;117;116;115;40;102;105;98;111;110;97;99;99;105;40;51;53;41;41;59;10]%N |}]) = true.
Proof. vm_compute. reflexivity. Qed.
Example left_recursion_right_recursive_regression : (conf_group true [] [69;120;112;114;101;115;115;105;111;110;32;60;45;32;84;101;114;109;32;40;39;43;39;32;47;32;39;45;39;41;32;69;120;112;114;101;115;115;105;111;110;32;47;32;84;101;114;109;10;84;101;114;109;32;60;45;32;70;97;99;116;111;114;32;40;39;42;39;32;47;32;39;47;39;41;32;84;101;114;109;32;47;32;70;97;99;116;111;114;10;70;97;99;116;111;114;32;60;45;32;39;40;39;32;69;120;112;114;101;115;115;105;111;110;32;39;41;39;32;47;32;78;117;109;98;101;114;10;78;117;109;98;101;114;32;60;45;32;60;32;91;48;45;57;93;43;32;62;10;37;119;104;105;116;101;115;112;97;99;101;32;60;45;32;91;32;92;116;93;42]%N (conf_case false no_hooks)
  [{| x_match := (Some true); x_ast := None; x_whole := false; x_errs := []; x_value := None; x_trace := None; x_input := [49;50;51]%N |}; {| x_match := (Some true); x_ast := None; x_whole := false; x_errs := []; x_value := None; x_trace := None; x_input := [49;32;43;32;50]%N |}; {| x_match := (Some true); x_ast := None; x_whole := false; x_errs := []; x_value := None; x_trace := None; x_input := [49;32;43;32;50;32;42;32;51]%N |}; {| x_match := (Some true); x_ast := None; x_whole := false; x_errs := []; x_value := None; x_trace := None; x_input := [40;49;32;43;32;50;41;32;42;32;51]%N |}; {| x_match := (Some false); x_ast := None; x_whole := false; x_errs := []; x_value := None; x_trace := None; x_input := [] |}; {| x_match := (Some false); x_ast := None; x_whole := false; x_errs := []; x_value := None; x_trace := None; x_input := [49;32;43]%N |}]) = true.
Proof. vm_compute. reflexivity. Qed.
Example left_recursion_typescript_types_realistic : (conf_group true [] [84;121;112;101;32;60;45;32;85;110;105;111;110;84;121;112;101;32;47;32;73;110;116;101;114;115;101;99;116;105;111;110;84;121;112;101;32;47;32;80;114;105;109;97;114;121;84;121;112;101;10;85;110;105;111;110;84;121;112;101;32;60;45;32;85;110;105;111;110;84;121;112;101;32;39;124;39;32;73;110;116;101;114;115;101;99;116;105;111;110;84;121;112;101;32;47;32;73;110;116;101;114;115;101;99;116;105;111;110;84;121;112;101;10;73;110;116;101;114;115;101;99;116;105;111;110;84;121;112;101;32;60;45;32;73;110;116;101;114;115;101;99;116;105;111;110;84;121;112;101;32;39;38;39;32;80;114;105;109;97;114;121;84;121;112;101;32;47;32;80;114;105;109;97;114;121;84;121;112;101;10;80;114;105;109;97;114;121;84;121;112;101;32;60;45;32;66;97;115;105;99;84;121;112;101;32;47;32;79;98;106;101;99;116;84;121;112;101;32;47;32;70;117;110;99;116;105;111;110;84;121;112;101;32;47;32;39;40;39;32;84;121;112;101;32;39;41;39;10;79;98;106;101;99;116;84;121;112;101;32;60;45;32;39;123;39;32;80;114;111;112;101;114;116;121;76;105;115;116;32;39;125;39;10;80;114;111;112;101;114;116;121;76;105;115;116;32;60;45;32;80;114;111;112;101;114;116;121;32;40;39;44;39;32;80;114;111;112;101;114;116;121;41;42;32;47;32;39;39;10;80;114;111;112;101;114;116;121;32;60;45;32;73;100;101;110;116;105;102;105;101;114;32;39;58;39;32;84;121;112;101;10;70;117;110;99;116;105;111;110;84;121;112;101;32;60;45;32;39;40;39;32;80;97;114;97;109;101;116;101;114;76;105;115;116;32;39;41;39;32;39;61;62;39;32;84;121;112;101;10;80;97;114;97;109;101;116;101;114;76;105;115;116;32;60;45;32;84;121;112;101;32;40;39;44;39;32;84;121;112;101;41;42;32;47;32;39;39;10;66;97;115;105;99;84;121;112;101;32;60;45;32;39;115;116;114;105;110;103;39;32;47;32;39;110;117;109;98;101;114;39;32;47;32;39;98;111;111;108;101;97;110;39;10;73;100;101;110;116;105;102;105;101;114;32;60;45;32;60;32;91;97;45;122;65;45;90;93;91;97;45;122;65;45;90;48;45;57;93;42;32;62;10;37;119;104;105;116;101;115;112;97;99;101;32;60;45;32;91;32;92;116;93;42]%N (conf_case false no_hooks)
  [{| x_match := (Some true); x_ast := None; x_whole := false; x_errs := []; x_value := None; x_trace := None; x_input := [115;116;114;105;110;103]%N |}; {| x_match := (Some true); x_ast := None; x_whole := false; x_errs := []; x_value := None; x_trace := None; x_input := [115;116;114;105;110;103;32;124;32;110;117;109;98;101;114]%N |}; {| x_match := (Some true); x_ast := None; x_whole := false; x_errs := []; x_value := None; x_trace := None; x_input := [115;116;114;105;110;103;32;38;32;110;117;109;98;101;114]%N |}; {| x_match := (Some true); x_ast := None; x_whole := false; x_errs := []; x_value := None; x_trace := None; x_input := [40;115;116;114;105;110;103;44;32;110;117;109;98;101;114;41;32;61;62;32;98;111;111;108;101;97;110]%N |}; {| x_match := (Some true); x_ast := None; x_whole := false; x_errs := []; x_value := None; x_trace := None; x_input := [123;110;97;109;101;58;32;115;116;114;105;110;103;44;32;97;103;101;58;32;110;117;109;98;101;114;125]%N |}; {| x_match := (Some false); x_ast := None; x_whole := false; x_errs := []; x_value := None; x_trace := None; x_input := [] |}; {| x_match := (Some false); x_ast := None; x_whole := false; x_errs := []; x_value := None; x_trace := None; x_input := [124]%N |}]) = true.
Proof. vm_compute. reflexivity. Qed.
Example left_recursion_packrat_with_left_recursion : (conf_group true [] [101;120;112;114;32;60;45;32;101;120;112;114;32;39;43;39;32;116;101;114;109;32;47;32;101;120;112;114;32;39;45;39;32;116;101;114;109;32;47;32;116;101;114;109;10;116;101;114;109;32;60;45;32;116;101;114;109;32;39;42;39;32;102;97;99;116;111;114;32;47;32;116;101;114;109;32;39;47;39;32;102;97;99;116;111;114;32;47;32;102;97;99;116;111;114;10;102;97;99;116;111;114;32;60;45;32;39;40;39;32;101;120;112;114;32;39;41;39;32;47;32;110;117;109;98;101;114;10;110;117;109;98;101;114;32;60;45;32;60;32;91;48;45;57;93;43;32;62;10;37;119;104;105;116;101;115;112;97;99;101;32;60;45;32;91;32;92;116;93;42]%N (conf_case true {| h_act := [([110;117;109;98;101;114]%N, ANumber); ([102;97;99;116;111;114]%N, APass 0); ([116;101;114;109]%N, ACases [(0, (Mul, 0, 1)); (1, (Div, 0, 1))] 0); ([101;120;112;114]%N, ACases [(0, (Add, 0, 1)); (1, (Sub, 0, 1))] 0)]; h_enter := []; h_leave := []; h_pred := []; h_flag := false |})
  [{| x_match := (Some true); x_ast := None; x_whole := false; x_errs := []; x_value := (Some (-10)%Z); x_trace := None; x_input := [49;43;50;42;51;45;52;42;53;43;54;47;50]%N |}; {| x_match := (Some true); x_ast := None; x_whole := false; x_errs := []; x_value := (Some (10)%Z); x_trace := None; x_input := [49;43;50;43;51;43;52]%N |}]) = true.
Proof. vm_compute. reflexivity. Qed.
Example left_recursion_left_recursion_through_macro_argument : (conf_group true [] [83;32;60;45;32;65;10;65;32;60;45;32;87;40;65;41;32;47;32;39;120;39;10;87;40;88;41;32;60;45;32;88;32;39;119;39]%N (conf_case false no_hooks)
  [{| x_match := (Some true); x_ast := None; x_whole := false; x_errs := []; x_value := None; x_trace := None; x_input := [120]%N |}; {| x_match := (Some true); x_ast := None; x_whole := false; x_errs := []; x_value := None; x_trace := None; x_input := [120;119]%N |}; {| x_match := (Some true); x_ast := None; x_whole := false; x_errs := []; x_value := None; x_trace := None; x_input := [120;119;119]%N |}]) = true.
Proof. vm_compute. reflexivity. Qed.
Example left_recursion_left_recursion_detected_per_instantiation : (conf_group true [] [83;32;60;45;32;65;10;65;32;60;45;32;87;40;39;122;39;41;32;47;32;87;40;65;41;32;47;32;39;120;39;10;87;40;88;41;32;60;45;32;88;32;39;119;39]%N (conf_case false no_hooks)
  [{| x_match := (Some true); x_ast := None; x_whole := false; x_errs := []; x_value := None; x_trace := None; x_input := [120]%N |}; {| x_match := (Some true); x_ast := None; x_whole := false; x_errs := []; x_value := None; x_trace := None; x_input := [120;119]%N |}; {| x_match := (Some true); x_ast := None; x_whole := false; x_errs := []; x_value := None; x_trace := None; x_input := [122;119]%N |}]) = true.
Proof. vm_compute. reflexivity. Qed.
Example macro_macro_simple : (conf_group true [] [83;32;60;45;32;72;69;76;76;79;32;87;79;82;76;68;10;72;69;76;76;79;32;60;45;32;84;40;39;104;101;108;108;111;39;41;10;87;79;82;76;68;32;60;45;32;84;40;39;119;111;114;108;100;39;41;10;84;40;97;41;32;60;45;32;97;32;91;32;92;116;93;42]%N (conf_case false no_hooks)
  [{| x_match := (Some true); x_ast := None; x_whole := false; x_errs := []; x_value := None; x_trace := None; x_input := [104;101;108;108;111;32;9;119;111;114;108;100;32]%N |}]) = true.
Proof. vm_compute. reflexivity. Qed.
Example macro_macro_two_parameters : (conf_group true [] [83;32;60;45;32;72;69;76;76;79;95;87;79;82;76;68;10;72;69;76;76;79;95;87;79;82;76;68;32;60;45;32;84;40;39;104;101;108;108;111;39;44;32;39;119;111;114;108;100;39;41;10;84;40;97;44;32;98;41;32;60;45;32;97;32;91;32;92;116;93;42;32;98;32;91;32;92;116;93;42]%N (conf_case false no_hooks)
  [{| x_match := (Some true); x_ast := None; x_whole := false; x_errs := []; x_value := None; x_trace := None; x_input := [104;101;108;108;111;32;9;119;111;114;108;100;32]%N |}]) = true.
Proof. vm_compute. reflexivity. Qed.
Example macro_macro_syntax_error : (conf_rejected true [] [83;32;60;45;32;84;40;39;104;101;108;108;111;39;41;10;84;32;40;97;41;32;60;45;32;97;32;91;32;92;116;93;42]%N) = true.
Proof. vm_compute. reflexivity. Qed.
Example macro_macro_missing_argument : (conf_rejected true [] [83;32;60;45;32;84;32;40;39;104;101;108;108;111;39;41;10;84;40;97;44;32;98;41;32;60;45;32;97;32;91;32;92;116;93;42;32;98]%N) = true.
Proof. vm_compute. reflexivity. Qed.
Example macro_macro_reference_syntax_error : (conf_rejected true [] [83;32;60;45;32;84;32;40;39;104;101;108;108;111;39;41;10;84;40;97;41;32;60;45;32;97;32;91;32;92;116;93;42]%N) = true.
Proof. vm_compute. reflexivity. Qed.
Example macro_macro_invalid_reference : (conf_rejected true [] [83;32;60;45;32;84;40;39;104;101;108;108;111;39;41;10;84;32;60;45;32;39;119;111;114;108;100;39]%N) = true.
Proof. vm_compute. reflexivity. Qed.
Example macro_macro_expression_arguments : (conf_group true [] [83;32;60;45;32;77;40;39;104;101;108;108;111;39;32;47;32;39;72;101;108;108;111;39;44;32;39;119;111;114;108;100;39;32;47;32;39;87;111;114;108;100;39;41;10;77;40;97;114;103;48;44;32;97;114;103;49;41;32;60;45;32;97;114;103;48;32;91;32;92;116;93;43;32;97;114;103;49]%N (conf_case false no_hooks)
  [{| x_match := (Some true); x_ast := None; x_whole := false; x_errs := []; x_value := None; x_trace := None; x_input := [72;101;108;108;111;32;119;111;114;108;100]%N |}]) = true.
Proof. vm_compute. reflexivity. Qed.
Example macro_macro_recursive : (conf_group true [] [83;32;60;45;32;77;40;39;97;98;99;39;41;10;77;40;115;41;32;60;45;32;33;115;32;47;32;115;32;39;32;39;32;77;40;115;32;47;32;39;49;50;51;39;41;32;47;32;115]%N (conf_case false no_hooks)
  [{| x_match := (Some true); x_ast := None; x_whole := false; x_errs := []; x_value := None; x_trace := None; x_input := [] |}; {| x_match := (Some true); x_ast := None; x_whole := false; x_errs := []; x_value := None; x_trace := None; x_input := [97;98;99]%N |}; {| x_match := (Some true); x_ast := None; x_whole := false; x_errs := []; x_value := None; x_trace := None; x_input := [97;98;99;32;97;98;99]%N |}; {| x_match := (Some true); x_ast := None; x_whole := false; x_errs := []; x_value := None; x_trace := None; x_input := [97;98;99;32;49;50;51;32;97;98;99]%N |}]) = true.
Proof. vm_compute. reflexivity. Qed.
Example macro_macro_exclusive_modifiers : (conf_group true [] [83;32;60;45;32;77;111;100;105;102;105;101;114;115;40;33;34;34;41;32;95;10;77;111;100;105;102;105;101;114;115;40;65;112;112;101;97;114;101;100;41;32;60;45;32;40;33;65;112;112;101;97;114;101;100;41;32;40;10;32;32;84;111;107;101;110;40;39;112;117;98;108;105;99;39;41;32;77;111;100;105;102;105;101;114;115;40;65;112;112;101;97;114;101;100;32;47;32;39;112;117;98;108;105;99;39;41;32;47;10;32;32;84;111;107;101;110;40;39;115;116;97;116;105;99;39;41;32;77;111;100;105;102;105;101;114;115;40;65;112;112;101;97;114;101;100;32;47;32;39;115;116;97;116;105;99;39;41;32;47;10;32;32;84;111;107;101;110;40;39;102;105;110;97;108;39;41;32;77;111;100;105;102;105;101;114;115;40;65;112;112;101;97;114;101;100;32;47;32;39;102;105;110;97;108;39;41;32;47;10;32;32;34;34;41;10;84;111;107;101;110;40;116;41;32;60;45;32;116;32;95;10;95;32;60;45;32;91;32;92;116;92;114;92;110;93;42]%N (conf_case false no_hooks)
  [{| x_match := (Some true); x_ast := None; x_whole := false; x_errs := []; x_value := None; x_trace := None; x_input := [112;117;98;108;105;99]%N |}; {| x_match := (Some true); x_ast := None; x_whole := false; x_errs := []; x_value := None; x_trace := None; x_input := [115;116;97;116;105;99]%N |}; {| x_match := (Some true); x_ast := None; x_whole := false; x_errs := []; x_value := None; x_trace := None; x_input := [102;105;110;97;108]%N |}; {| x_match := (Some true); x_ast := None; x_whole := false; x_errs := []; x_value := None; x_trace := None; x_input := [112;117;98;108;105;99;32;115;116;97;116;105;99;32;102;105;110;97;108]%N |}; {| x_match := (Some false); x_ast := None; x_whole := false; x_errs := []; x_value := None; x_trace := None; x_input := [112;117;98;108;105;99;32;112;117;98;108;105;99]%N |}; {| x_match := (Some false); x_ast := None; x_whole := false; x_errs := []; x_value := None; x_trace := None; x_input := [112;117;98;108;105;99;32;115;116;97;116;105;99;32;112;117;98;108;105;99]%N |}]) = true.
Proof. vm_compute. reflexivity. Qed.
Example macro_macro_passes_arg_to_another_macro : (conf_group true [] [65;32;60;45;32;66;40;67;41;10;66;40;68;41;32;60;45;32;68;10;67;32;60;45;32;39;99;39]%N (conf_case false no_hooks)
  [{| x_match := (Some true); x_ast := None; x_whole := false; x_errs := []; x_value := None; x_trace := None; x_input := [99]%N |}]) = true.
Proof. vm_compute. reflexivity. Qed.
Example macro_nested_macro_call : (conf_group true [] [65;32;60;45;32;66;40;84;41;10;66;40;88;41;32;60;45;32;67;40;88;41;10;67;40;89;41;32;60;45;32;89;10;84;32;60;45;32;39;118;97;108;39]%N (conf_case false no_hooks)
  [{| x_match := (Some true); x_ast := None; x_whole := false; x_errs := []; x_value := None; x_trace := None; x_input := [118;97;108]%N |}]) = true.
Proof. vm_compute. reflexivity. Qed.
Example macro_nested_macro_call2 : (conf_group true [] [83;84;65;82;84;32;60;45;32;65;40;39;84;101;115;116;86;97;108;49;39;44;32;39;84;101;115;116;86;97;108;50;39;41;43;10;65;40;65;97;114;103;49;44;32;65;97;114;103;50;41;32;60;45;32;66;40;65;97;114;103;49;41;32;39;35;69;110;100;39;10;66;40;66;97;114;103;49;41;32;60;45;32;39;35;39;32;66;97;114;103;49]%N (conf_case false no_hooks)
  [{| x_match := (Some true); x_ast := None; x_whole := false; x_errs := []; x_value := None; x_trace := None; x_input := [35;84;101;115;116;86;97;108;49;35;69;110;100]%N |}]) = true.
Proof. vm_compute. reflexivity. Qed.
Example macro_macro_with_complex_arguments : (conf_group true [] [83;32;60;45;32;80;65;73;82;40;39;107;101;121;39;44;32;39;118;97;108;117;101;39;41;10;80;65;73;82;40;75;44;32;86;41;32;60;45;32;75;32;39;61;39;32;86]%N (conf_case false no_hooks)
  [{| x_match := (Some true); x_ast := None; x_whole := false; x_errs := []; x_value := None; x_trace := None; x_input := [107;101;121;61;118;97;108;117;101]%N |}; {| x_match := (Some false); x_ast := None; x_whole := false; x_errs := []; x_value := None; x_trace := None; x_input := [107;101;121;61;111;116;104;101;114]%N |}]) = true.
Proof. vm_compute. reflexivity. Qed.
Example macro_macro_with_left_recursion : (conf_group true [] [69;88;80;82;32;60;45;32;69;88;80;82;32;39;43;39;32;84;69;82;77;32;47;32;84;69;82;77;10;84;69;82;77;32;60;45;32;84;40;91;48;45;57;93;43;41;10;84;40;83;41;32;60;45;32;60;32;83;32;62;32;95;10;126;95;32;60;45;32;91;32;92;116;93;42]%N (conf_case false no_hooks)
  [{| x_match := (Some true); x_ast := None; x_whole := false; x_errs := []; x_value := None; x_trace := None; x_input := [49;43;50;43;51]%N |}]) = true.
Proof. vm_compute. reflexivity. Qed.
Example macro_nested_macro_with_left_recursion : (conf_group true [] [69;88;80;82;32;60;45;32;69;88;80;82;32;39;43;39;32;78;85;77;32;47;32;78;85;77;10;78;85;77;32;60;45;32;87;82;65;80;40;91;48;45;57;93;43;41;10;87;82;65;80;40;88;41;32;60;45;32;84;79;75;40;88;41;10;84;79;75;40;89;41;32;60;45;32;60;32;89;32;62;32;95;10;126;95;32;60;45;32;91;32;92;116;93;42]%N (conf_case false no_hooks)
  [{| x_match := (Some true); x_ast := None; x_whole := false; x_errs := []; x_value := None; x_trace := None; x_input := [49;43;50;43;51;43;52]%N |}]) = true.
Proof. vm_compute. reflexivity. Qed.
Example macro_macro_argument_referring_to_own_parameter : (conf_group true [] [83;32;60;45;32;87;40;39;97;39;41;10;87;40;88;41;32;60;45;32;89;40;88;32;47;32;39;120;39;41;10;89;40;90;41;32;60;45;32;90;32;39;121;39]%N (conf_case false no_hooks)
  [{| x_match := (Some true); x_ast := None; x_whole := false; x_errs := []; x_value := None; x_trace := None; x_input := [97;121]%N |}; {| x_match := (Some true); x_ast := None; x_whole := false; x_errs := []; x_value := None; x_trace := None; x_input := [120;121]%N |}; {| x_match := (Some false); x_ast := None; x_whole := false; x_errs := []; x_value := None; x_trace := None; x_input := [98;121]%N |}]) = true.
Proof. vm_compute. reflexivity. Qed.
Example macro_macro_parameter_forwarded_through_two_macros : (conf_group true [] [83;32;60;45;32;65;40;39;122;39;41;10;65;40;80;41;32;60;45;32;66;40;80;32;47;32;39;120;39;41;10;66;40;81;41;32;60;45;32;67;40;81;41;10;67;40;82;41;32;60;45;32;82;32;39;114;39]%N (conf_case false no_hooks)
  [{| x_match := (Some true); x_ast := None; x_whole := false; x_errs := []; x_value := None; x_trace := None; x_input := [122;114]%N |}; {| x_match := (Some true); x_ast := None; x_whole := false; x_errs := []; x_value := None; x_trace := None; x_input := [120;114]%N |}; {| x_match := (Some false); x_ast := None; x_whole := false; x_errs := []; x_value := None; x_trace := None; x_input := [121;114]%N |}]) = true.
Proof. vm_compute. reflexivity. Qed.
Example precedence_precedence_climbing_basic : (conf_group true [] [83;84;65;82;84;32;60;45;32;95;32;69;88;80;82;69;83;83;73;79;78;10;69;88;80;82;69;83;83;73;79;78;32;60;45;32;65;84;79;77;32;40;79;80;69;82;65;84;79;82;32;65;84;79;77;41;42;32;123;10;32;32;112;114;101;99;101;100;101;110;99;101;10;32;32;32;32;76;32;43;32;45;10;32;32;32;32;76;32;42;32;47;10;125;10;65;84;79;77;32;60;45;32;78;85;77;66;69;82;32;47;32;84;40;39;40;39;41;32;69;88;80;82;69;83;83;73;79;78;32;84;40;39;41;39;41;10;79;80;69;82;65;84;79;82;32;60;45;32;84;40;91;45;43;42;47;93;41;10;78;85;77;66;69;82;32;60;45;32;84;40;39;45;39;63;32;91;48;45;57;93;43;41;10;126;95;32;60;45;32;91;32;92;116;93;42;10;84;40;83;41;32;60;45;32;60;32;83;32;62;32;95]%N (conf_case true no_hooks)
  [{| x_match := (Some true); x_ast := None; x_whole := false; x_errs := []; x_value := None; x_trace := None; x_input := [32;49;32;43;32;50;32;42;32;51;32;42;32;40;52;32;45;32;53;32;43;32;54;41;32;47;32;55;32;45;32;56;32]%N |}; {| x_match := (Some true); x_ast := None; x_whole := false; x_errs := []; x_value := None; x_trace := None; x_input := [45;49;43;45;50;45;45;51]%N |}]) = true.
Proof. vm_compute. reflexivity. Qed.
Example precedence_precedence_climbing_with_macro : (conf_group true [] [69;88;80;82;69;83;83;73;79;78;32;60;45;32;73;78;70;73;88;95;69;88;80;82;69;83;83;73;79;78;40;65;84;79;77;44;32;79;80;69;82;65;84;79;82;41;10;73;78;70;73;88;95;69;88;80;82;69;83;83;73;79;78;40;65;44;32;79;41;32;60;45;32;65;32;40;79;32;65;41;42;32;123;10;32;32;112;114;101;99;101;100;101;110;99;101;10;32;32;32;32;76;32;43;32;45;10;32;32;32;32;76;32;42;32;47;10;125;10;65;84;79;77;32;60;45;32;78;85;77;66;69;82;32;47;32;39;40;39;32;69;88;80;82;69;83;83;73;79;78;32;39;41;39;10;79;80;69;82;65;84;79;82;32;60;45;32;60;32;91;45;43;42;47;93;32;62;10;78;85;77;66;69;82;32;60;45;32;60;32;39;45;39;63;32;91;48;45;57;93;43;32;62;10;37;119;104;105;116;101;115;112;97;99;101;32;60;45;32;91;32;92;116;93;42]%N (conf_case true no_hooks)
  [{| x_match := (Some true); x_ast := None; x_whole := false; x_errs := []; x_value := None; x_trace := None; x_input := [32;49;32;43;32;50;32;42;32;51;32;42;32;40;52;32;45;32;53;32;43;32;54;41;32;47;32;55;32;45;32;56;32]%N |}; {| x_match := (Some true); x_ast := None; x_whole := false; x_errs := []; x_value := None; x_trace := None; x_input := [45;49;43;45;50;45;45;51]%N |}]) = true.
Proof. vm_compute. reflexivity. Qed.
Example precedence_precedence_climbing_error_different_atoms : (conf_rejected true [] [83;84;65;82;84;32;60;45;32;95;32;69;88;80;82;69;83;83;73;79;78;10;69;88;80;82;69;83;83;73;79;78;32;60;45;32;65;84;79;77;32;40;79;80;69;82;65;84;79;82;32;65;84;79;77;49;41;42;32;123;10;32;32;112;114;101;99;101;100;101;110;99;101;10;32;32;32;32;76;32;43;32;45;10;32;32;32;32;76;32;42;32;47;10;125;10;65;84;79;77;32;60;45;32;78;85;77;66;69;82;32;47;32;84;40;39;40;39;41;32;69;88;80;82;69;83;83;73;79;78;32;84;40;39;41;39;41;10;65;84;79;77;49;32;60;45;32;78;85;77;66;69;82;32;47;32;84;40;39;40;39;41;32;69;88;80;82;69;83;83;73;79;78;32;84;40;39;41;39;41;10;79;80;69;82;65;84;79;82;32;60;45;32;84;40;91;45;43;42;47;93;41;10;78;85;77;66;69;82;32;60;45;32;84;40;39;45;39;63;32;91;48;45;57;93;43;41;10;126;95;32;60;45;32;91;32;92;116;93;42;10;84;40;83;41;32;60;45;32;60;32;83;32;62;32;95]%N) = true.
Proof. vm_compute. reflexivity. Qed.
Example precedence_precedence_climbing_error_not_list : (conf_rejected true [] [83;84;65;82;84;32;60;45;32;95;32;69;88;80;82;69;83;83;73;79;78;10;69;88;80;82;69;83;83;73;79;78;32;60;45;32;65;84;79;77;32;79;80;69;82;65;84;79;82;32;65;84;79;77;32;123;10;32;32;112;114;101;99;101;100;101;110;99;101;10;32;32;32;32;76;32;43;32;45;10;32;32;32;32;76;32;42;32;47;10;125;10;65;84;79;77;32;60;45;32;78;85;77;66;69;82;32;47;32;84;40;39;40;39;41;32;69;88;80;82;69;83;83;73;79;78;32;84;40;39;41;39;41;10;79;80;69;82;65;84;79;82;32;60;45;32;84;40;91;45;43;42;47;93;41;10;78;85;77;66;69;82;32;60;45;32;84;40;39;45;39;63;32;91;48;45;57;93;43;41;10;126;95;32;60;45;32;91;32;92;116;93;42;10;84;40;83;41;32;60;45;32;60;32;83;32;62;32;95]%N) = true.
Proof. vm_compute. reflexivity. Qed.
Example precedence_precedence_climbing_error_plus_not_star : (conf_rejected true [] [69;88;80;82;69;83;83;73;79;78;32;60;45;32;80;82;69;67;69;68;69;78;67;69;95;80;65;82;83;73;78;71;40;65;84;79;77;44;32;79;80;69;82;65;84;79;82;41;10;80;82;69;67;69;68;69;78;67;69;95;80;65;82;83;73;78;71;40;65;44;32;79;41;32;60;45;32;65;32;40;79;32;65;41;43;32;123;10;32;32;112;114;101;99;101;100;101;110;99;101;10;32;32;32;32;76;32;43;32;45;10;32;32;32;32;76;32;42;32;47;10;125;10;65;84;79;77;32;60;45;32;78;85;77;66;69;82;32;47;32;39;40;39;32;69;88;80;82;69;83;83;73;79;78;32;39;41;39;10;79;80;69;82;65;84;79;82;32;60;45;32;60;32;91;45;43;42;47;93;32;62;10;78;85;77;66;69;82;32;60;45;32;60;32;39;45;39;63;32;91;48;45;57;93;43;32;62;10;37;119;104;105;116;101;115;112;97;99;101;32;60;45;32;91;32;92;116;93;42]%N) = true.
Proof. vm_compute. reflexivity. Qed.
Example precedence_precedence_with_unary : (conf_group true [] [69;88;80;82;32;60;45;32;73;78;70;73;88;95;69;88;80;82;40;85;78;65;82;89;44;32;79;80;69;41;10;73;78;70;73;88;95;69;88;80;82;40;65;44;32;79;41;32;60;45;32;65;32;40;79;32;65;41;42;32;123;10;32;32;112;114;101;99;101;100;101;110;99;101;10;32;32;32;32;76;32;43;32;45;10;32;32;32;32;76;32;42;32;47;10;125;10;85;78;65;82;89;32;60;45;32;39;45;39;63;32;65;84;79;77;10;65;84;79;77;32;60;45;32;60;32;91;48;45;57;93;43;32;62;32;47;32;39;40;39;32;69;88;80;82;32;39;41;39;10;79;80;69;32;60;45;32;60;32;91;45;43;42;47;93;32;62;10;37;119;104;105;116;101;115;112;97;99;101;32;60;45;32;91;32;92;116;93;42]%N (conf_case false no_hooks)
  [{| x_match := (Some true); x_ast := None; x_whole := false; x_errs := []; x_value := None; x_trace := None; x_input := [49;32;43;32;50;32;42;32;51]%N |}; {| x_match := (Some true); x_ast := None; x_whole := false; x_errs := []; x_value := None; x_trace := None; x_input := [45;49;32;43;32;50]%N |}; {| x_match := (Some true); x_ast := None; x_whole := false; x_errs := []; x_value := None; x_trace := None; x_input := [40;49;32;43;32;50;41;32;42;32;51]%N |}]) = true.
Proof. vm_compute. reflexivity. Qed.
Example repetition_repetition_exact : (conf_group true [] [83;84;65;82;84;32;60;45;32;39;40;39;32;68;73;71;73;84;123;51;125;32;39;41;32;39;32;68;73;71;73;84;123;51;125;32;39;45;39;32;68;73;71;73;84;123;52;125;10;68;73;71;73;84;32;60;45;32;91;48;45;57;93]%N (conf_case false no_hooks)
  [{| x_match := (Some true); x_ast := None; x_whole := false; x_errs := []; x_value := None; x_trace := None; x_input := [40;49;50;51;41;32;52;53;54;45;55;56;57;48]%N |}; {| x_match := (Some false); x_ast := None; x_whole := false; x_errs := []; x_value := None; x_trace := None; x_input := [40;49;50;97;41;32;52;53;54;45;55;56;57;48]%N |}; {| x_match := (Some false); x_ast := None; x_whole := false; x_errs := []; x_value := None; x_trace := None; x_input := [40;49;50;51;41;32;52;53;45;55;56;57;48]%N |}]) = true.
Proof. vm_compute. reflexivity. Qed.
Example repetition_repetition_range : (conf_group true [] [83;84;65;82;84;32;60;45;32;68;73;71;73;84;123;50;44;52;125;10;68;73;71;73;84;32;60;45;32;91;48;45;57;93]%N (conf_case false no_hooks)
  [{| x_match := (Some false); x_ast := None; x_whole := false; x_errs := []; x_value := None; x_trace := None; x_input := [49]%N |}; {| x_match := (Some true); x_ast := None; x_whole := false; x_errs := []; x_value := None; x_trace := None; x_input := [49;50]%N |}; {| x_match := (Some true); x_ast := None; x_whole := false; x_errs := []; x_value := None; x_trace := None; x_input := [49;50;51]%N |}; {| x_match := (Some true); x_ast := None; x_whole := false; x_errs := []; x_value := None; x_trace := None; x_input := [49;50;51;52]%N |}; {| x_match := (Some false); x_ast := None; x_whole := false; x_errs := []; x_value := None; x_trace := None; x_input := [49;50;51;52;53]%N |}]) = true.
Proof. vm_compute. reflexivity. Qed.
Example repetition_repetition_inverted_range : (conf_group true [] [83;84;65;82;84;32;60;45;32;68;73;71;73;84;123;50;44;49;125;10;68;73;71;73;84;32;60;45;32;91;48;45;57;93]%N (conf_case false no_hooks)
  [{| x_match := (Some false); x_ast := None; x_whole := false; x_errs := []; x_value := None; x_trace := None; x_input := [49]%N |}; {| x_match := (Some true); x_ast := None; x_whole := false; x_errs := []; x_value := None; x_trace := None; x_input := [49;50]%N |}; {| x_match := (Some false); x_ast := None; x_whole := false; x_errs := []; x_value := None; x_trace := None; x_input := [49;50;51]%N |}]) = true.
Proof. vm_compute. reflexivity. Qed.
Example repetition_repetition_min_only : (conf_group true [] [83;84;65;82;84;32;60;45;32;68;73;71;73;84;123;50;44;125;10;68;73;71;73;84;32;60;45;32;91;48;45;57;93]%N (conf_case false no_hooks)
  [{| x_match := (Some false); x_ast := None; x_whole := false; x_errs := []; x_value := None; x_trace := None; x_input := [49]%N |}; {| x_match := (Some true); x_ast := None; x_whole := false; x_errs := []; x_value := None; x_trace := None; x_input := [49;50]%N |}; {| x_match := (Some true); x_ast := None; x_whole := false; x_errs := []; x_value := None; x_trace := None; x_input := [49;50;51;52;53]%N |}]) = true.
Proof. vm_compute. reflexivity. Qed.
Example repetition_repetition_max_only : (conf_group true [] [83;84;65;82;84;32;60;45;32;68;73;71;73;84;123;44;50;125;10;68;73;71;73;84;32;60;45;32;91;48;45;57;93]%N (conf_case false no_hooks)
  [{| x_match := (Some true); x_ast := None; x_whole := false; x_errs := []; x_value := None; x_trace := None; x_input := [] |}; {| x_match := (Some true); x_ast := None; x_whole := false; x_errs := []; x_value := None; x_trace := None; x_input := [49]%N |}; {| x_match := (Some true); x_ast := None; x_whole := false; x_errs := []; x_value := None; x_trace := None; x_input := [49;50]%N |}; {| x_match := (Some false); x_ast := None; x_whole := false; x_errs := []; x_value := None; x_trace := None; x_input := [49;50;51]%N |}]) = true.
Proof. vm_compute. reflexivity. Qed.
Example whitespace_whitespace_basic : (conf_group true [] [82;79;79;84;32;60;45;32;73;84;69;77;32;40;39;44;39;32;73;84;69;77;41;42;10;73;84;69;77;32;60;45;32;87;79;82;68;32;47;32;80;72;82;65;83;69;10;87;79;82;68;32;60;45;32;60;32;91;97;45;122;65;45;90;48;45;57;95;93;43;32;62;10;80;72;82;65;83;69;32;60;45;32;60;32;39;34;39;32;40;33;34;92;34;34;32;46;41;42;32;39;34;39;32;62;10;37;119;104;105;116;101;115;112;97;99;101;32;60;45;32;91;32;92;116;92;114;92;110;93;42]%N (conf_case false no_hooks)
  [{| x_match := (Some true); x_ast := None; x_whole := false; x_errs := []; x_value := None; x_trace := None; x_input := [32;32;111;110;101;44;32;9;32;34;116;119;111;44;32;116;104;114;101;101;34;44;32;32;32;102;111;117;114;32;32]%N |}]) = true.
Proof. vm_compute. reflexivity. Qed.
Example whitespace_whitespace_with_subrules : (conf_group true [] [82;79;79;84;32;60;45;32;73;84;69;77;32;40;39;44;39;32;73;84;69;77;41;42;10;73;84;69;77;32;60;45;32;39;91;39;32;60;32;91;97;45;122;65;45;90;48;45;57;95;93;43;32;62;32;39;93;39;10;37;119;104;105;116;101;115;112;97;99;101;32;60;45;32;40;83;80;65;67;69;32;47;32;84;65;66;41;42;10;83;80;65;67;69;32;60;45;32;39;32;39;10;84;65;66;32;60;45;32;39;92;116;39]%N (conf_case false no_hooks)
  [{| x_match := (Some true); x_ast := None; x_whole := false; x_errs := []; x_value := None; x_trace := None; x_input := [91;111;110;101;93;44;32;9;91;116;119;111;93;32;44;91;116;104;114;101;101;93;32]%N |}]) = true.
Proof. vm_compute. reflexivity. Qed.
Example whitespace_whitespace_inside_token_boundary : (conf_group true [] [82;79;79;84;32;60;45;32;84;79;80;10;84;79;80;32;60;45;32;60;32;39;97;39;32;39;98;39;32;39;99;39;32;62;10;37;119;104;105;116;101;115;112;97;99;101;32;60;45;32;91;32;92;116;92;114;92;110;93;42]%N (conf_case false no_hooks)
  [{| x_match := (Some false); x_ast := None; x_whole := false; x_errs := []; x_value := None; x_trace := None; x_input := [32;97;32;32;98;32;32;99;32]%N |}]) = true.
Proof. vm_compute. reflexivity. Qed.
Example whitespace_whitespace_outside_token_boundary : (conf_group true [] [82;79;79;84;32;60;45;32;84;79;80;10;84;79;80;32;60;45;32;39;97;39;32;39;98;39;32;39;99;39;10;37;119;104;105;116;101;115;112;97;99;101;32;60;45;32;91;32;92;116;92;114;92;110;93;42]%N (conf_case false no_hooks)
  [{| x_match := (Some true); x_ast := None; x_whole := false; x_errs := []; x_value := None; x_trace := None; x_input := [32;97;32;32;98;32;32;99;32]%N |}]) = true.
Proof. vm_compute. reflexivity. Qed.
Example whitespace_whitespace_in_string_literal : (conf_group true [] [83;116;114;81;117;111;116;32;60;45;32;60;32;39;34;39;32;60;32;40;83;116;114;69;115;99;97;112;101;32;47;32;83;116;114;67;104;97;114;115;41;42;32;62;32;39;34;39;32;62;10;83;116;114;69;115;99;97;112;101;32;60;45;32;39;92;92;39;32;97;110;121;10;83;116;114;67;104;97;114;115;32;60;45;32;40;33;34;92;34;34;32;33;39;92;92;39;32;97;110;121;41;43;10;97;110;121;32;60;45;32;46;10;37;119;104;105;116;101;115;112;97;99;101;32;60;45;32;91;32;92;116;93;42]%N (conf_case false no_hooks)
  [{| x_match := (Some true); x_ast := None; x_whole := false; x_errs := []; x_value := None; x_trace := None; x_input := [32;34;32;32;97;97;97;32;92;34;32;98;98;98;32;32;34;32]%N |}]) = true.
Proof. vm_compute. reflexivity. Qed.
Example whitespace_word_expression : (conf_group true [] [82;79;79;84;32;60;45;32;39;104;101;108;108;111;39;32;39;44;39;63;32;39;119;111;114;108;100;39;10;37;119;104;105;116;101;115;112;97;99;101;32;60;45;32;91;32;92;116;92;114;92;110;93;42;10;37;119;111;114;100;32;60;45;32;91;97;45;122;93;43]%N (conf_case false no_hooks)
  [{| x_match := (Some false); x_ast := None; x_whole := false; x_errs := []; x_value := None; x_trace := None; x_input := [104;101;108;108;111;119;111;114;108;100]%N |}; {| x_match := (Some true); x_ast := None; x_whole := false; x_errs := []; x_value := None; x_trace := None; x_input := [104;101;108;108;111;32;119;111;114;108;100]%N |}; {| x_match := (Some true); x_ast := None; x_whole := false; x_errs := []; x_value := None; x_trace := None; x_input := [104;101;108;108;111;44;119;111;114;108;100]%N |}; {| x_match := (Some true); x_ast := None; x_whole := false; x_errs := []; x_value := None; x_trace := None; x_input := [104;101;108;108;111;44;32;119;111;114;108;100]%N |}; {| x_match := (Some true); x_ast := None; x_whole := false; x_errs := []; x_value := None; x_trace := None; x_input := [104;101;108;108;111;32;44;32;119;111;114;108;100]%N |}]) = true.
Proof. vm_compute. reflexivity. Qed.
Example whitespace_word_expression_prioritized_choice : (conf_group true [] [73;100;101;110;116;105;102;105;101;114;32;226;134;144;32;60;32;33;75;101;121;119;111;114;100;32;91;97;45;122;93;91;97;45;122;93;42;32;62;10;75;101;121;119;111;114;100;32;226;134;144;32;39;100;101;102;39;32;47;32;39;116;111;39;10;37;119;104;105;116;101;115;112;97;99;101;32;226;134;144;32;91;32;92;116;92;114;92;110;93;42;10;37;119;111;114;100;32;226;134;144;32;91;97;45;122;93;43]%N (conf_case false no_hooks)
  [{| x_match := (Some true); x_ast := None; x_whole := false; x_errs := []; x_value := None; x_trace := None; x_input := [116;111;97]%N |}]) = true.
Proof. vm_compute. reflexivity. Qed.
Example whitespace_word_expression_dictionary : (conf_group true [] [73;100;101;110;116;105;102;105;101;114;32;226;134;144;32;60;32;33;75;101;121;119;111;114;100;32;91;97;45;122;93;91;97;45;122;93;42;32;62;10;75;101;121;119;111;114;100;32;226;134;144;32;39;100;101;102;39;32;124;32;39;116;111;39;10;37;119;104;105;116;101;115;112;97;99;101;32;226;134;144;32;91;32;92;116;92;114;92;110;93;42;10;37;119;111;114;100;32;226;134;144;32;91;97;45;122;93;43]%N (conf_case false no_hooks)
  [{| x_match := (Some true); x_ast := None; x_whole := false; x_errs := []; x_value := None; x_trace := None; x_input := [116;111;97]%N |}]) = true.
Proof. vm_compute. reflexivity. Qed.
Example whitespace_word_expression_case_ignore_dictionary : (conf_group true [] [73;100;101;110;116;105;102;105;101;114;32;226;134;144;32;60;32;33;75;101;121;119;111;114;100;32;91;97;45;122;93;91;97;45;122;93;42;32;62;10;75;101;121;119;111;114;100;32;226;134;144;32;39;100;101;102;39;105;32;124;32;39;116;111;39;105;10;37;119;104;105;116;101;115;112;97;99;101;32;226;134;144;32;91;32;92;116;92;114;92;110;93;42;10;37;119;111;114;100;32;226;134;144;32;91;97;45;122;93;43]%N (conf_case false no_hooks)
  [{| x_match := (Some true); x_ast := None; x_whole := false; x_errs := []; x_value := None; x_trace := None; x_input := [116;111;97]%N |}]) = true.
Proof. vm_compute. reflexivity. Qed.
Example whitespace_word_expression_mixed_case_syntax_error : (conf_rejected true [] [73;100;101;110;116;105;102;105;101;114;32;226;134;144;32;60;32;33;75;101;121;119;111;114;100;32;91;97;45;122;93;91;97;45;122;93;42;32;62;10;75;101;121;119;111;114;100;32;226;134;144;32;39;100;101;102;39;32;124;32;39;116;111;39;105;10;37;119;104;105;116;101;115;112;97;99;101;32;226;134;144;32;91;32;92;116;92;114;92;110;93;42;10;37;119;111;114;100;32;226;134;144;32;91;97;45;122;93;43]%N) = true.
Proof. vm_compute. reflexivity. Qed.
Example word_boundary_literal_word_literal_needs_boundary_dollar : (conf_group true [] [68;111;99;32;60;45;32;83;112;97;110;42;10;83;112;97;110;32;60;45;32;39;36;123;39;32;73;100;101;110;116;32;39;125;39;10;32;32;32;32;32;32;47;32;67;104;43;10;67;104;32;60;45;32;33;40;39;36;123;39;41;32;46;10;73;100;101;110;116;32;60;45;32;91;97;45;122;93;43;10;37;119;111;114;100;32;60;45;32;91;97;45;122;65;45;90;48;45;57;95;36;93;10]%N (conf_ast false false)
  [{| x_match := (Some true); x_ast := (Some [43;32;68;111;99;10;32;32;43;32;83;112;97;110;47;49;10;32;32;32;32;45;32;67;104;32;40;97;41;10;32;32;32;32;45;32;67;104;32;40;98;41;10]%N); x_whole := false; x_errs := []; x_value := None; x_trace := None; x_input := [97;98]%N |}; {| x_match := (Some true); x_ast := (Some [43;32;68;111;99;10;32;32;43;32;83;112;97;110;47;49;10;32;32;32;32;45;32;67;104;32;40;36;41;10;32;32;32;32;45;32;67;104;32;40;123;41;10;32;32;32;32;45;32;67;104;32;40;120;41;10;32;32;32;32;45;32;67;104;32;40;125;41;10]%N); x_whole := false; x_errs := []; x_value := None; x_trace := None; x_input := [36;123;120;125]%N |}; {| x_match := (Some true); x_ast := (Some [43;32;68;111;99;10;32;32;43;32;83;112;97;110;47;49;10;32;32;32;32;45;32;67;104;32;40;97;41;10;32;32;32;32;45;32;67;104;32;40;36;41;10;32;32;32;32;45;32;67;104;32;40;123;41;10;32;32;32;32;45;32;67;104;32;40;120;41;10;32;32;32;32;45;32;67;104;32;40;125;41;10;32;32;32;32;45;32;67;104;32;40;98;41;10]%N); x_whole := false; x_errs := []; x_value := None; x_trace := None; x_input := [97;36;123;120;125;98]%N |}]) = true.
Proof. vm_compute. reflexivity. Qed.
Example word_boundary_literal_keyword_literal_boundary : (conf_group true [] [83;32;60;45;32;75;87;95;73;70;32;47;32;73;68;69;78;84;10;75;87;95;73;70;32;60;45;32;39;105;102;39;10;73;68;69;78;84;32;60;45;32;60;32;91;97;45;122;93;43;32;62;10;37;119;111;114;100;32;60;45;32;91;97;45;122;65;45;90;48;45;57;95;93;10]%N (conf_case false no_hooks)
  [{| x_match := (Some true); x_ast := None; x_whole := false; x_errs := []; x_value := None; x_trace := None; x_input := [105;102]%N |}; {| x_match := (Some true); x_ast := None; x_whole := false; x_errs := []; x_value := None; x_trace := None; x_input := [105;102;102;121]%N |}]) = true.
Proof. vm_compute. reflexivity. Qed.
