(** Generated by tools/mkconform.py from /repo/spec/tests/ast: tests of the model, see Conform.v. *)
From Coq Require Import NArith ZArith.
From Verif Require Import Base Conform.
Example choice_count_choice_suffix_top_level : (conf_group true [] [83;32;60;45;32;65;32;47;32;66;10;65;32;60;45;32;60;32;39;97;39;32;62;10;66;32;60;45;32;60;32;39;98;39;32;62;10;67;32;60;45;32;60;32;39;99;39;32;62;10;68;32;60;45;32;60;32;39;100;39;32;62;10]%N (conf_ast false false)
  [{| x_match := (Some true); x_ast := (Some [43;32;83;47;48;10;32;32;45;32;65;32;40;97;41;10]%N); x_whole := false; x_errs := []; x_value := None; x_trace := None; x_input := [97]%N |}; {| x_match := (Some true); x_ast := (Some [43;32;83;47;49;10;32;32;45;32;66;32;40;98;41;10]%N); x_whole := false; x_errs := []; x_value := None; x_trace := None; x_input := [98]%N |}]) = true.
Proof. vm_compute. reflexivity. Qed.
Example choice_count_no_choice_suffix_nested_in_sequence : (conf_group true [] [83;32;60;45;32;40;65;32;47;32;66;41;32;67;10;65;32;60;45;32;60;32;39;97;39;32;62;10;66;32;60;45;32;60;32;39;98;39;32;62;10;67;32;60;45;32;60;32;39;99;39;32;62;10;68;32;60;45;32;60;32;39;100;39;32;62;10]%N (conf_ast false false)
  [{| x_match := (Some true); x_ast := (Some [43;32;83;10;32;32;45;32;65;32;40;97;41;10;32;32;45;32;67;32;40;99;41;10]%N); x_whole := false; x_errs := []; x_value := None; x_trace := None; x_input := [97;99]%N |}; {| x_match := (Some true); x_ast := (Some [43;32;83;10;32;32;45;32;66;32;40;98;41;10;32;32;45;32;67;32;40;99;41;10]%N); x_whole := false; x_errs := []; x_value := None; x_trace := None; x_input := [98;99]%N |}]) = true.
Proof. vm_compute. reflexivity. Qed.
Example choice_count_no_choice_suffix_choice_at_sequence_end : (conf_group true [] [83;32;60;45;32;65;32;40;66;32;47;32;67;41;10;65;32;60;45;32;60;32;39;97;39;32;62;10;66;32;60;45;32;60;32;39;98;39;32;62;10;67;32;60;45;32;60;32;39;99;39;32;62;10;68;32;60;45;32;60;32;39;100;39;32;62;10]%N (conf_ast false false)
  [{| x_match := (Some true); x_ast := (Some [43;32;83;10;32;32;45;32;65;32;40;97;41;10;32;32;45;32;66;32;40;98;41;10]%N); x_whole := false; x_errs := []; x_value := None; x_trace := None; x_input := [97;98]%N |}; {| x_match := (Some true); x_ast := (Some [43;32;83;10;32;32;45;32;65;32;40;97;41;10;32;32;45;32;67;32;40;99;41;10]%N); x_whole := false; x_errs := []; x_value := None; x_trace := None; x_input := [97;99]%N |}]) = true.
Proof. vm_compute. reflexivity. Qed.
Example choice_count_choice_of_sequences : (conf_group true [] [83;32;60;45;32;65;32;66;32;47;32;67;32;68;10;65;32;60;45;32;60;32;39;97;39;32;62;10;66;32;60;45;32;60;32;39;98;39;32;62;10;67;32;60;45;32;60;32;39;99;39;32;62;10;68;32;60;45;32;60;32;39;100;39;32;62;10]%N (conf_ast false false)
  [{| x_match := (Some true); x_ast := (Some [43;32;83;47;48;10;32;32;45;32;65;32;40;97;41;10;32;32;45;32;66;32;40;98;41;10]%N); x_whole := false; x_errs := []; x_value := None; x_trace := None; x_input := [97;98]%N |}; {| x_match := (Some true); x_ast := (Some [43;32;83;47;49;10;32;32;45;32;67;32;40;99;41;10;32;32;45;32;68;32;40;100;41;10]%N); x_whole := false; x_errs := []; x_value := None; x_trace := None; x_input := [99;100]%N |}]) = true.
Proof. vm_compute. reflexivity. Qed.
Example choice_count_token_boundary_over_choice : (conf_group true [] [83;32;60;45;32;60;32;65;32;47;32;66;32;62;10;65;32;60;45;32;60;32;39;97;39;32;62;10;66;32;60;45;32;60;32;39;98;39;32;62;10;67;32;60;45;32;60;32;39;99;39;32;62;10;68;32;60;45;32;60;32;39;100;39;32;62;10]%N (conf_ast false false)
  [{| x_match := (Some true); x_ast := (Some [45;32;83;47;48;32;40;97;41;10]%N); x_whole := false; x_errs := []; x_value := None; x_trace := None; x_input := [97]%N |}; {| x_match := (Some true); x_ast := (Some [45;32;83;47;49;32;40;98;41;10]%N); x_whole := false; x_errs := []; x_value := None; x_trace := None; x_input := [98]%N |}]) = true.
Proof. vm_compute. reflexivity. Qed.
Example choice_count_dictionary_choice_suffix : (conf_group true [] [83;32;60;45;32;39;97;39;32;124;32;39;98;39;32;124;32;39;99;39;10]%N (conf_ast false false)
  [{| x_match := (Some true); x_ast := (Some [45;32;83;47;48;32;40;97;41;10]%N); x_whole := false; x_errs := []; x_value := None; x_trace := None; x_input := [97]%N |}; {| x_match := (Some true); x_ast := (Some [45;32;83;47;49;32;40;98;41;10]%N); x_whole := false; x_errs := []; x_value := None; x_trace := None; x_input := [98]%N |}; {| x_match := (Some true); x_ast := (Some [45;32;83;47;50;32;40;99;41;10]%N); x_whole := false; x_errs := []; x_value := None; x_trace := None; x_input := [99]%N |}]) = true.
Proof. vm_compute. reflexivity. Qed.
Example instructions_no_ast_opt_instruction : (conf_group true [] [83;32;60;45;32;87;114;97;112;112;101;100;10;87;114;97;112;112;101;100;32;60;45;32;73;110;110;101;114;32;123;32;110;111;95;97;115;116;95;111;112;116;32;125;10;73;110;110;101;114;32;60;45;32;60;32;91;97;45;122;93;43;32;62;10]%N (conf_ast false true)
  [{| x_match := (Some true); x_ast := (Some [43;32;83;91;87;114;97;112;112;101;100;93;10;32;32;45;32;73;110;110;101;114;32;40;97;98;99;41;10]%N); x_whole := false; x_errs := []; x_value := None; x_trace := None; x_input := [97;98;99]%N |}]) = true.
Proof. vm_compute. reflexivity. Qed.
Example instructions_ast_name_instruction : (conf_group true [] [83;32;60;45;32;73;116;101;109;10;73;116;101;109;32;60;45;32;60;32;91;97;45;122;93;43;32;62;32;123;32;97;115;116;95;110;97;109;101;58;32;87;111;114;100;32;125;10]%N (conf_ast false false)
  [{| x_match := (Some true); x_ast := (Some [43;32;83;10;32;32;45;32;87;111;114;100;32;40;97;98;99;41;10]%N); x_whole := false; x_errs := []; x_value := None; x_trace := None; x_input := [97;98;99]%N |}]) = true.
Proof. vm_compute. reflexivity. Qed.
Example optimization_single_child_chain_raw : (conf_group true [] [65;32;60;45;32;66;10;66;32;60;45;32;67;10;67;32;60;45;32;60;32;91;97;45;122;93;43;32;62;10]%N (conf_ast false false)
  [{| x_match := (Some true); x_ast := (Some [43;32;65;10;32;32;43;32;66;10;32;32;32;32;45;32;67;32;40;104;101;108;108;111;41;10]%N); x_whole := false; x_errs := []; x_value := None; x_trace := None; x_input := [104;101;108;108;111]%N |}; {| x_match := (Some false); x_ast := None; x_whole := false; x_errs := []; x_value := None; x_trace := None; x_input := [] |}]) = true.
Proof. vm_compute. reflexivity. Qed.
Example optimization_single_child_chain_optimized : (conf_group true [] [65;32;60;45;32;66;10;66;32;60;45;32;67;10;67;32;60;45;32;60;32;91;97;45;122;93;43;32;62;10]%N (conf_ast false true)
  [{| x_match := (Some true); x_ast := (Some [45;32;65;91;67;93;32;40;104;101;108;108;111;41;10]%N); x_whole := false; x_errs := []; x_value := None; x_trace := None; x_input := [104;101;108;108;111]%N |}; {| x_match := (Some true); x_ast := (Some [45;32;65;91;67;93;32;40;97;41;10]%N); x_whole := false; x_errs := []; x_value := None; x_trace := None; x_input := [97]%N |}]) = true.
Proof. vm_compute. reflexivity. Qed.
Example optimization_multiple_children_optimized : (conf_group true [] [83;32;60;45;32;65;32;66;32;67;10;65;32;60;45;32;39;97;39;10;66;32;60;45;32;39;98;39;10;67;32;60;45;32;39;99;39;10]%N (conf_ast false true)
  [{| x_match := (Some true); x_ast := (Some [43;32;83;10;32;32;45;32;65;32;40;97;41;10;32;32;45;32;66;32;40;98;41;10;32;32;45;32;67;32;40;99;41;10]%N); x_whole := false; x_errs := []; x_value := None; x_trace := None; x_input := [97;98;99]%N |}; {| x_match := (Some false); x_ast := None; x_whole := false; x_errs := []; x_value := None; x_trace := None; x_input := [97;98]%N |}]) = true.
Proof. vm_compute. reflexivity. Qed.
Example optimization_arithmetic_optimized : (conf_group true [] [69;88;80;82;32;60;45;32;84;69;82;77;32;40;39;43;39;32;84;69;82;77;41;42;10;84;69;82;77;32;60;45;32;70;65;67;84;79;82;32;40;39;42;39;32;70;65;67;84;79;82;41;42;10;70;65;67;84;79;82;32;60;45;32;60;32;91;48;45;57;93;43;32;62;10]%N (conf_ast false true)
  [{| x_match := (Some true); x_ast := (Some [43;32;69;88;80;82;10;32;32;45;32;84;69;82;77;91;70;65;67;84;79;82;93;32;40;49;41;10;32;32;43;32;84;69;82;77;10;32;32;32;32;45;32;70;65;67;84;79;82;32;40;50;41;10;32;32;32;32;45;32;70;65;67;84;79;82;32;40;51;41;10]%N); x_whole := false; x_errs := []; x_value := None; x_trace := None; x_input := [49;43;50;42;51]%N |}; {| x_match := (Some true); x_ast := (Some [45;32;69;88;80;82;91;70;65;67;84;79;82;93;32;40;49;41;10]%N); x_whole := false; x_errs := []; x_value := None; x_trace := None; x_input := [49]%N |}; {| x_match := (Some true); x_ast := (Some [43;32;69;88;80;82;10;32;32;45;32;84;69;82;77;91;70;65;67;84;79;82;93;32;40;49;50;41;10;32;32;45;32;84;69;82;77;91;70;65;67;84;79;82;93;32;40;51;41;10]%N); x_whole := false; x_errs := []; x_value := None; x_trace := None; x_input := [49;50;43;51]%N |}]) = true.
Proof. vm_compute. reflexivity. Qed.
