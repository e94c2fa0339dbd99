(** Generated by tools/mkconform.py from /repo/spec/tests/packrat: tests of the model, see Conform.v. *)
From Coq Require Import NArith ZArith.
From Verif Require Import Base Conform.
Example packrat_packrat_with_whitespace : (conf_group true [] [82;79;79;84;32;60;45;32;39;97;39;10;37;119;104;105;116;101;115;112;97;99;101;32;60;45;32;83;80;65;67;69;42;10;83;80;65;67;69;32;60;45;32;39;32;39]%N (conf_case true no_hooks)
  [{| x_match := (Some true); x_ast := None; x_whole := false; x_errs := []; x_value := None; x_trace := None; x_input := [97]%N |}]) = true.
Proof. vm_compute. reflexivity. Qed.
Example packrat_packrat_with_macro : (conf_group true [] [69;88;80;82;69;83;83;73;79;78;32;60;45;32;95;32;76;73;83;84;40;84;69;82;77;44;32;84;69;82;77;95;79;80;69;82;65;84;79;82;41;10;84;69;82;77;32;60;45;32;76;73;83;84;40;70;65;67;84;79;82;44;32;70;65;67;84;79;82;95;79;80;69;82;65;84;79;82;41;10;70;65;67;84;79;82;32;60;45;32;78;85;77;66;69;82;32;47;32;84;40;39;40;39;41;32;69;88;80;82;69;83;83;73;79;78;32;84;40;39;41;39;41;10;84;69;82;77;95;79;80;69;82;65;84;79;82;32;60;45;32;84;40;91;45;43;93;41;10;70;65;67;84;79;82;95;79;80;69;82;65;84;79;82;32;60;45;32;84;40;91;42;47;93;41;10;78;85;77;66;69;82;32;60;45;32;84;40;91;48;45;57;93;43;41;10;126;95;32;60;45;32;91;32;92;116;93;42;10;76;73;83;84;40;73;44;32;68;41;32;60;45;32;73;32;40;68;32;73;41;42;10;84;40;83;41;32;60;45;32;60;32;83;32;62;32;95]%N (conf_case true no_hooks)
  [{| x_match := (Some true); x_ast := None; x_whole := false; x_errs := []; x_value := None; x_trace := None; x_input := [32;49;32;43;32;50;32;42;32;51;32;42;32;40;52;32;45;32;53;32;43;32;54;41;32;47;32;55;32;45;32;56;32]%N |}]) = true.
Proof. vm_compute. reflexivity. Qed.
Example packrat_packrat_with_precedence : (conf_group true [] [69;120;112;114;101;115;115;105;111;110;32;60;45;32;65;116;111;109;32;40;79;112;101;114;97;116;111;114;32;65;116;111;109;41;42;32;123;32;112;114;101;99;101;100;101;110;99;101;32;76;32;43;32;45;32;76;32;42;32;47;32;125;10;65;116;111;109;32;60;45;32;95;63;32;78;117;109;98;101;114;32;95;63;10;78;117;109;98;101;114;32;60;45;32;91;48;45;57;93;43;10;79;112;101;114;97;116;111;114;32;60;45;32;39;43;39;32;47;32;39;45;39;32;47;32;39;42;39;32;47;32;39;47;39;10;95;32;60;45;32;39;32;39;43]%N (conf_case true no_hooks)
  [{| x_match := (Some true); x_ast := None; x_whole := false; x_errs := []; x_value := None; x_trace := None; x_input := [32;49;32;43;32;50;32;42;32;51;32]%N |}]) = true.
Proof. vm_compute. reflexivity. Qed.
Example packrat_packrat_correctness : (conf_group true [] [83;32;60;45;32;65;32;47;32;66;10;65;32;60;45;32;88;32;39;97;39;10;66;32;60;45;32;88;32;39;98;39;10;88;32;60;45;32;39;120;39;32;39;121;39;63]%N (conf_case true no_hooks)
  [{| x_match := (Some true); x_ast := None; x_whole := false; x_errs := []; x_value := None; x_trace := None; x_input := [120;97]%N |}; {| x_match := (Some true); x_ast := None; x_whole := false; x_errs := []; x_value := None; x_trace := None; x_input := [120;98]%N |}; {| x_match := (Some true); x_ast := None; x_whole := false; x_errs := []; x_value := None; x_trace := None; x_input := [120;121;97]%N |}; {| x_match := (Some true); x_ast := None; x_whole := false; x_errs := []; x_value := None; x_trace := None; x_input := [120;121;98]%N |}; {| x_match := (Some false); x_ast := None; x_whole := false; x_errs := []; x_value := None; x_trace := None; x_input := [120;99]%N |}; {| x_match := (Some false); x_ast := None; x_whole := false; x_errs := []; x_value := None; x_trace := None; x_input := [] |}]) = true.
Proof. vm_compute. reflexivity. Qed.
Example packrat_packrat_with_semantic_actions : (conf_group true [] [69;88;80;82;32;60;45;32;84;69;82;77;32;40;40;39;43;39;32;47;32;39;45;39;41;32;84;69;82;77;41;42;10;84;69;82;77;32;60;45;32;60;32;91;48;45;57;93;43;32;62]%N (conf_case true no_hooks)
  [{| x_match := (Some true); x_ast := None; x_whole := false; x_errs := []; x_value := None; x_trace := None; x_input := [49;43;50;45;51]%N |}; {| x_match := (Some true); x_ast := None; x_whole := false; x_errs := []; x_value := None; x_trace := None; x_input := [49;43;50]%N |}; {| x_match := (Some true); x_ast := None; x_whole := false; x_errs := []; x_value := None; x_trace := None; x_input := [53]%N |}; {| x_match := (Some true); x_ast := None; x_whole := false; x_errs := []; x_value := None; x_trace := None; x_input := [49;45;50;43;51;45;52]%N |}]) = true.
Proof. vm_compute. reflexivity. Qed.
Example packrat_packrat_cache_with_choice_backtracking : (conf_group true [] [83;32;60;45;32;65;32;66;32;47;32;65;32;67;10;65;32;60;45;32;39;104;101;108;108;111;39;10;66;32;60;45;32;39;119;111;114;108;100;39;10;67;32;60;45;32;39;116;104;101;114;101;39;10;37;119;104;105;116;101;115;112;97;99;101;32;60;45;32;91;32;93;42]%N (conf_case true no_hooks)
  [{| x_match := (Some true); x_ast := None; x_whole := false; x_errs := []; x_value := None; x_trace := None; x_input := [104;101;108;108;111;32;116;104;101;114;101]%N |}; {| x_match := (Some true); x_ast := None; x_whole := false; x_errs := []; x_value := None; x_trace := None; x_input := [104;101;108;108;111;32;119;111;114;108;100]%N |}]) = true.
Proof. vm_compute. reflexivity. Qed.
