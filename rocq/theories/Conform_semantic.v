(** Generated by tools/mkconform.py from /repo/spec/tests/semantic: tests of the model, see Conform.v. *)
From Coq Require Import NArith ZArith.
From Verif Require Import Base Conform.
Example arithmetic_calculator_with_grammar_text : (conf_group true [] [69;88;80;82;69;83;83;73;79;78;32;60;45;32;84;69;82;77;32;40;84;69;82;77;95;79;80;69;82;65;84;79;82;32;84;69;82;77;41;42;10;84;69;82;77;32;60;45;32;70;65;67;84;79;82;32;40;70;65;67;84;79;82;95;79;80;69;82;65;84;79;82;32;70;65;67;84;79;82;41;42;10;70;65;67;84;79;82;32;60;45;32;78;85;77;66;69;82;32;47;32;39;40;39;32;69;88;80;82;69;83;83;73;79;78;32;39;41;39;10;84;69;82;77;95;79;80;69;82;65;84;79;82;32;60;45;32;60;32;91;45;43;93;32;62;10;70;65;67;84;79;82;95;79;80;69;82;65;84;79;82;32;60;45;32;60;32;91;47;42;93;32;62;10;78;85;77;66;69;82;32;60;45;32;60;32;91;48;45;57;93;43;32;62]%N (conf_case false {| h_act := [([70;65;67;84;79;82;95;79;80;69;82;65;84;79;82]%N, AString); ([84;69;82;77;95;79;80;69;82;65;84;79;82]%N, AString); ([78;85;77;66;69;82]%N, ANumber); ([70;65;67;84;79;82]%N, APass 0); ([84;69;82;77]%N, AReduce [([42]%N, Mul); ([47]%N, Div)]); ([69;88;80;82;69;83;83;73;79;78]%N, AReduce [([43]%N, Add); ([45]%N, Sub)])]; h_enter := []; h_leave := []; h_pred := []; h_flag := false |})
  [{| x_match := (Some true); x_ast := None; x_whole := false; x_errs := []; x_value := (Some (-3)%Z); x_trace := None; x_input := [49;43;50;42;51;42;40;52;45;53;43;54;41;47;55;45;56]%N |}]) = true.
Proof. vm_compute. reflexivity. Qed.
Example arithmetic_macro_calculator : (conf_group true [] [69;88;80;82;69;83;83;73;79;78;32;60;45;32;95;32;76;73;83;84;40;84;69;82;77;44;32;84;69;82;77;95;79;80;69;82;65;84;79;82;41;10;84;69;82;77;32;60;45;32;76;73;83;84;40;70;65;67;84;79;82;44;32;70;65;67;84;79;82;95;79;80;69;82;65;84;79;82;41;10;70;65;67;84;79;82;32;60;45;32;78;85;77;66;69;82;32;47;32;84;40;39;40;39;41;32;69;88;80;82;69;83;83;73;79;78;32;84;40;39;41;39;41;10;84;69;82;77;95;79;80;69;82;65;84;79;82;32;60;45;32;84;40;91;45;43;93;41;10;70;65;67;84;79;82;95;79;80;69;82;65;84;79;82;32;60;45;32;84;40;91;42;47;93;41;10;78;85;77;66;69;82;32;60;45;32;84;40;91;48;45;57;93;43;41;10;126;95;32;60;45;32;91;32;92;116;93;42;10;76;73;83;84;40;73;44;32;68;41;32;60;45;32;73;32;40;68;32;73;41;42;10;84;40;83;41;32;60;45;32;60;32;83;32;62;32;95]%N (conf_case false {| h_act := [([70;65;67;84;79;82;95;79;80;69;82;65;84;79;82]%N, AString); ([84;69;82;77;95;79;80;69;82;65;84;79;82]%N, AString); ([78;85;77;66;69;82]%N, ANumber); ([70;65;67;84;79;82]%N, APass 0); ([84;69;82;77]%N, AReduce [([42]%N, Mul); ([47]%N, Div)]); ([69;88;80;82;69;83;83;73;79;78]%N, AReduce [([43]%N, Add); ([45]%N, Sub)])]; h_enter := []; h_leave := []; h_pred := []; h_flag := false |})
  [{| x_match := (Some true); x_ast := None; x_whole := false; x_errs := []; x_value := (Some (-3)%Z); x_trace := None; x_input := [32;49;32;43;32;50;32;42;32;51;32;42;32;40;52;32;45;32;53;32;43;32;54;41;32;47;32;55;32;45;32;56;32]%N |}]) = true.
Proof. vm_compute. reflexivity. Qed.
Example choice_detection_choice_index : (conf_group true [] [83;32;60;45;32;39;97;39;32;47;32;39;98;39]%N (conf_case false {| h_act := [([83]%N, AChoice)]; h_enter := []; h_leave := []; h_pred := []; h_flag := false |})
  [{| x_match := (Some true); x_ast := None; x_whole := false; x_errs := []; x_value := (Some (0)%Z); x_trace := None; x_input := [97]%N |}; {| x_match := (Some true); x_ast := None; x_whole := false; x_errs := []; x_value := (Some (1)%Z); x_trace := None; x_input := [98]%N |}]) = true.
Proof. vm_compute. reflexivity. Qed.
Example choice_detection_choice_with_whitespace : (conf_group true [] [116;121;112;101;32;60;45;32;39;115;116;114;105;110;103;39;32;47;32;39;105;110;116;39;32;47;32;39;100;111;117;98;108;101;39;10;37;119;104;105;116;101;115;112;97;99;101;32;60;45;32;39;32;39;42]%N (conf_case false {| h_act := [([116;121;112;101]%N, AChoice)]; h_enter := []; h_leave := []; h_pred := []; h_flag := false |})
  [{| x_match := (Some true); x_ast := None; x_whole := false; x_errs := []; x_value := (Some (1)%Z); x_trace := None; x_input := [105;110;116]%N |}]) = true.
Proof. vm_compute. reflexivity. Qed.
Example enter_leave_enter_leave_ordering : (conf_group true [] [83;32;60;45;32;65;32;66;10;65;32;60;45;32;39;97;39;10;66;32;60;45;32;39;98;39]%N (conf_case false {| h_act := []; h_enter := [([65]%N, Record_); ([66]%N, Record_)]; h_leave := [([65]%N, Record_); ([66]%N, Record_)]; h_pred := []; h_flag := false |})
  [{| x_match := (Some true); x_ast := None; x_whole := false; x_errs := []; x_value := None; x_trace := (Some (true, [(true, [65]%N); (false, [65]%N); (true, [66]%N); (false, [66]%N)])); x_input := [97;98]%N |}]) = true.
Proof. vm_compute. reflexivity. Qed.
Example enter_leave_enter_leave_on_failed_parse : (conf_group true [] [83;32;60;45;32;65;32;66;10;65;32;60;45;32;39;97;39;10;66;32;60;45;32;39;98;39]%N (conf_case false {| h_act := []; h_enter := [([65]%N, Record_); ([66]%N, Record_)]; h_leave := [([65]%N, Record_); ([66]%N, Record_)]; h_pred := []; h_flag := false |})
  [{| x_match := (Some false); x_ast := None; x_whole := false; x_errs := []; x_value := None; x_trace := (Some (false, [(true, [65]%N); (false, [65]%N)])); x_input := [97;120]%N |}]) = true.
Proof. vm_compute. reflexivity. Qed.
Example enter_leave_enter_leave_with_backtracking : (conf_group true [] [83;32;60;45;32;65;32;47;32;66;10;65;32;60;45;32;73;84;69;77;32;39;120;39;10;66;32;60;45;32;73;84;69;77;32;39;121;39;10;73;84;69;77;32;60;45;32;39;97;39]%N (conf_case false {| h_act := []; h_enter := [([73;84;69;77]%N, Record_)]; h_leave := [([73;84;69;77]%N, Record_)]; h_pred := []; h_flag := false |})
  [{| x_match := (Some true); x_ast := None; x_whole := false; x_errs := []; x_value := None; x_trace := (Some (true, [(true, [73;84;69;77]%N); (false, [73;84;69;77]%N); (true, [73;84;69;77]%N); (false, [73;84;69;77]%N)])); x_input := [97;121]%N |}]) = true.
Proof. vm_compute. reflexivity. Qed.
Example enter_leave_enter_leave_state_management : (conf_group true [] [83;32;60;45;32;83;67;79;80;69;43;10;83;67;79;80;69;32;60;45;32;39;123;39;32;73;78;78;69;82;32;39;125;39;10;73;78;78;69;82;32;60;45;32;91;97;45;122;93;42]%N (conf_case false {| h_act := []; h_enter := [([83;67;79;80;69]%N, Count (1)%Z)]; h_leave := [([83;67;79;80;69]%N, Count (-1)%Z)]; h_pred := []; h_flag := false |})
  [{| x_match := (Some true); x_ast := None; x_whole := false; x_errs := []; x_value := (Some (0)%Z); x_trace := None; x_input := [123;97;125;123;98;125;123;99;125]%N |}]) = true.
Proof. vm_compute. reflexivity. Qed.
Example predicate_predicate_value_check : (conf_group true [] [78;85;77;66;69;82;32;60;45;32;60;32;91;48;45;57;93;43;32;62]%N (conf_case false {| h_act := [([78;85;77;66;69;82]%N, ANumber)]; h_enter := []; h_leave := []; h_pred := [([78;85;77;66;69;82]%N, (false, Between 100 100, [118;97;108;117;101;32;101;114;114;111;114;33;33]%N))]; h_flag := false |})
  [{| x_match := (Some true); x_ast := None; x_whole := false; x_errs := []; x_value := (Some (100)%Z); x_trace := None; x_input := [49;48;48]%N |}; {| x_match := (Some false); x_ast := None; x_whole := false; x_errs := [(None, None, (Some [118;97;108;117;101;32;101;114;114;111;114;33;33]%N))]; x_value := None; x_trace := None; x_input := [50;48;48]%N |}]) = true.
Proof. vm_compute. reflexivity. Qed.
Example predicate_predicate_with_backtracking : (conf_group true [] [83;32;60;45;32;65;32;47;32;66;10;65;32;60;45;32;78;85;77;10;66;32;60;45;32;78;85;77;10;78;85;77;32;60;45;32;60;32;91;48;45;57;93;43;32;62]%N (conf_case false {| h_act := []; h_enter := []; h_leave := []; h_pred := [([65]%N, (false, Between 1 99, [109;117;115;116;32;98;101;32;111;100;100]%N))]; h_flag := false |})
  [{| x_match := (Some true); x_ast := None; x_whole := false; x_errs := []; x_value := None; x_trace := None; x_input := [51]%N |}; {| x_match := (Some true); x_ast := None; x_whole := false; x_errs := []; x_value := None; x_trace := None; x_input := [52]%N |}]) = true.
Proof. vm_compute. reflexivity. Qed.
Example predicate_predicate_error_message : (conf_group true [] [83;32;60;45;32;60;32;91;48;45;57;93;43;32;62]%N (conf_case false {| h_act := []; h_enter := []; h_leave := []; h_pred := [([83]%N, (false, Between 0 100, [118;97;108;117;101;32;109;117;115;116;32;98;101;32;60;61;32;49;48;48]%N))]; h_flag := false |})
  [{| x_match := (Some true); x_ast := None; x_whole := false; x_errs := []; x_value := None; x_trace := None; x_input := [53;48]%N |}; {| x_match := (Some false); x_ast := None; x_whole := false; x_errs := [(None, None, (Some [118;97;108;117;101;32;109;117;115;116;32;98;101;32;60;61;32;49;48;48]%N))]; x_value := None; x_trace := None; x_input := [50;48;48]%N |}]) = true.
Proof. vm_compute. reflexivity. Qed.
Example predicate_predicate_with_banned_words : (conf_group true [] [83;32;60;45;32;84;79;75;69;78;43;10;84;79;75;69;78;32;60;45;32;60;32;91;97;45;122;93;43;32;62;10;37;119;104;105;116;101;115;112;97;99;101;32;60;45;32;91;32;92;116;93;42]%N (conf_case false {| h_act := []; h_enter := []; h_leave := []; h_pred := [([84;79;75;69;78]%N, (false, NotIn [[98;97;100]%N; [101;118;105;108]%N], [98;97;110;110;101;100;32;119;111;114;100]%N))]; h_flag := false |})
  [{| x_match := (Some true); x_ast := None; x_whole := false; x_errs := []; x_value := None; x_trace := None; x_input := [103;111;111;100;32;110;105;99;101]%N |}; {| x_match := (Some false); x_ast := None; x_whole := false; x_errs := []; x_value := None; x_trace := None; x_input := [103;111;111;100;32;98;97;100]%N |}]) = true.
Proof. vm_compute. reflexivity. Qed.
Example predicate_predicate_in_repetition : (conf_group true [] [83;32;60;45;32;78;85;77;43;10;78;85;77;32;60;45;32;60;32;91;48;45;57;93;43;32;62;10;37;119;104;105;116;101;115;112;97;99;101;32;60;45;32;91;32;92;116;93;42]%N (conf_case false {| h_act := []; h_enter := []; h_leave := []; h_pred := [([78;85;77]%N, (false, Between 0 9, [115;105;110;103;108;101;32;100;105;103;105;116;32;111;110;108;121]%N))]; h_flag := false |})
  [{| x_match := (Some true); x_ast := None; x_whole := false; x_errs := []; x_value := None; x_trace := None; x_input := [49;32;50;32;51]%N |}; {| x_match := (Some false); x_ast := None; x_whole := false; x_errs := []; x_value := None; x_trace := None; x_input := [49;32;50;48;32;51]%N |}]) = true.
Proof. vm_compute. reflexivity. Qed.
Example state_variables_context_driven_predicate : (conf_group true [] [83;84;65;82;84;32;60;45;32;76;84;79;75;69;78;32;39;61;39;32;82;84;79;75;69;78;10;76;84;79;75;69;78;32;60;45;32;84;79;75;69;78;10;82;84;79;75;69;78;32;60;45;32;84;79;75;69;78;10;84;79;75;69;78;32;60;45;32;91;65;45;90;97;45;122;93;43]%N (conf_case false {| h_act := []; h_enter := [([76;84;79;75;69;78]%N, SetFlag false)]; h_leave := [([76;84;79;75;69;78]%N, SetFlag true)]; h_pred := [([84;79;75;69;78]%N, (true, Upper, [115;104;111;117;108;100;32;98;101;32;117;112;112;101;114;32;99;97;115;101;32;115;116;114;105;110;103;46;46;46]%N))]; h_flag := false |})
  [{| x_match := (Some false); x_ast := None; x_whole := false; x_errs := []; x_value := None; x_trace := None; x_input := [104;101;108;108;111;61;119;111;114;108;100]%N |}; {| x_match := (Some false); x_ast := None; x_whole := false; x_errs := []; x_value := None; x_trace := None; x_input := [72;69;76;76;79;61;119;111;114;108;100]%N |}; {| x_match := (Some true); x_ast := None; x_whole := false; x_errs := []; x_value := None; x_trace := None; x_input := [104;101;108;108;111;61;87;79;82;76;68]%N |}; {| x_match := (Some true); x_ast := None; x_whole := false; x_errs := []; x_value := None; x_trace := None; x_input := [72;69;76;76;79;61;87;79;82;76;68]%N |}]) = true.
Proof. vm_compute. reflexivity. Qed.
Example token_conversion_token_to_number_int : (conf_group true [] [83;32;60;45;32;60;32;91;48;45;57;93;43;32;62]%N (conf_case false {| h_act := [([83]%N, ANumber)]; h_enter := []; h_leave := []; h_pred := []; h_flag := false |})
  [{| x_match := (Some true); x_ast := None; x_whole := false; x_errs := []; x_value := (Some (42)%Z); x_trace := None; x_input := [52;50]%N |}]) = true.
Proof. vm_compute. reflexivity. Qed.
Example token_conversion_token_to_number_float : (conf_group true [] [83;32;60;45;32;39;49;46;49;39]%N (conf_ast false false)
  [{| x_match := (Some true); x_ast := None; x_whole := false; x_errs := []; x_value := None; x_trace := None; x_input := [49;46;49]%N |}]) = true.
Proof. vm_compute. reflexivity. Qed.
Example token_conversion_token_to_string_capture : (conf_group true [] [82;79;79;84;32;60;45;32;95;32;84;79;75;69;78;42;10;84;79;75;69;78;32;60;45;32;39;91;39;32;60;32;40;33;39;93;39;32;46;41;43;32;62;32;39;93;39;32;95;10;95;32;60;45;32;91;32;92;116;92;114;92;110;93;42]%N (conf_case false {| h_act := [([84;79;75;69;78]%N, AString)]; h_enter := []; h_leave := []; h_pred := []; h_flag := false |})
  [{| x_match := (Some true); x_ast := None; x_whole := false; x_errs := []; x_value := None; x_trace := None; x_input := [32;91;116;97;103;49;93;32;91;116;97;103;58;50;93;32;91;116;97;103;45;51;93;32]%N |}]) = true.
Proof. vm_compute. reflexivity. Qed.
Example trace_ordering_trace_macro_is_transparent : (conf_group true [] [83;32;60;45;32;82;101;112;40;65;41;10;82;101;112;40;88;41;32;60;45;32;88;43;10;65;32;60;45;32;60;32;39;97;39;32;62;10]%N (conf_case false {| h_act := []; h_enter := [([83]%N, Record_); ([82;101;112]%N, Record_); ([65]%N, Record_)]; h_leave := [([83]%N, Record_); ([82;101;112]%N, Record_); ([65]%N, Record_)]; h_pred := []; h_flag := false |})
  [{| x_match := (Some true); x_ast := None; x_whole := false; x_errs := []; x_value := None; x_trace := (Some (true, [(true, [83]%N); (true, [65]%N); (false, [65]%N); (true, [65]%N); (false, [65]%N); (true, [65]%N); (false, [65]%N); (false, [83]%N)])); x_input := [97;97]%N |}; {| x_match := (Some true); x_ast := None; x_whole := false; x_errs := []; x_value := None; x_trace := (Some (true, [(true, [83]%N); (true, [65]%N); (false, [65]%N); (true, [65]%N); (false, [65]%N); (false, [83]%N)])); x_input := [97]%N |}]) = true.
Proof. vm_compute. reflexivity. Qed.
Example trace_ordering_trace_backtracking_alternatives : (conf_group true [] [83;32;60;45;32;65;32;39;120;39;32;47;32;65;32;39;121;39;10;65;32;60;45;32;60;32;39;97;39;32;62;10]%N (conf_case false {| h_act := []; h_enter := [([83]%N, Record_); ([65]%N, Record_)]; h_leave := [([83]%N, Record_); ([65]%N, Record_)]; h_pred := []; h_flag := false |})
  [{| x_match := (Some true); x_ast := None; x_whole := false; x_errs := []; x_value := None; x_trace := (Some (true, [(true, [83]%N); (true, [65]%N); (false, [65]%N); (false, [83]%N)])); x_input := [97;120]%N |}; {| x_match := (Some true); x_ast := None; x_whole := false; x_errs := []; x_value := None; x_trace := (Some (true, [(true, [83]%N); (true, [65]%N); (false, [65]%N); (true, [65]%N); (false, [65]%N); (false, [83]%N)])); x_input := [97;121]%N |}]) = true.
Proof. vm_compute. reflexivity. Qed.
Example trace_ordering_trace_repetition_final_attempt : (conf_group true [] [83;32;60;45;32;65;43;10;65;32;60;45;32;60;32;39;97;39;32;62;10]%N (conf_case false {| h_act := []; h_enter := [([83]%N, Record_); ([65]%N, Record_)]; h_leave := [([83]%N, Record_); ([65]%N, Record_)]; h_pred := []; h_flag := false |})
  [{| x_match := (Some true); x_ast := None; x_whole := false; x_errs := []; x_value := None; x_trace := (Some (true, [(true, [83]%N); (true, [65]%N); (false, [65]%N); (true, [65]%N); (false, [65]%N); (false, [83]%N)])); x_input := [97]%N |}; {| x_match := (Some true); x_ast := None; x_whole := false; x_errs := []; x_value := None; x_trace := (Some (true, [(true, [83]%N); (true, [65]%N); (false, [65]%N); (true, [65]%N); (false, [65]%N); (true, [65]%N); (false, [65]%N); (false, [83]%N)])); x_input := [97;97]%N |}]) = true.
Proof. vm_compute. reflexivity. Qed.
Example trace_ordering_trace_predicate : (conf_group true [] [83;32;60;45;32;38;65;32;65;10;65;32;60;45;32;60;32;39;97;39;32;62;10]%N (conf_case false {| h_act := []; h_enter := [([83]%N, Record_); ([65]%N, Record_)]; h_leave := [([83]%N, Record_); ([65]%N, Record_)]; h_pred := []; h_flag := false |})
  [{| x_match := (Some true); x_ast := None; x_whole := false; x_errs := []; x_value := None; x_trace := (Some (true, [(true, [83]%N); (true, [65]%N); (false, [65]%N); (true, [65]%N); (false, [65]%N); (false, [83]%N)])); x_input := [97]%N |}]) = true.
Proof. vm_compute. reflexivity. Qed.
Example trace_ordering_trace_left_recursion : (conf_group true [] [69;32;60;45;32;69;32;39;43;39;32;84;32;47;32;84;10;84;32;60;45;32;60;32;91;48;45;57;93;32;62;10]%N (conf_case false {| h_act := []; h_enter := [([69]%N, Record_); ([84]%N, Record_)]; h_leave := [([69]%N, Record_); ([84]%N, Record_)]; h_pred := []; h_flag := false |})
  [{| x_match := (Some true); x_ast := None; x_whole := false; x_errs := []; x_value := None; x_trace := (Some (true, [(true, [69]%N); (true, [84]%N); (false, [84]%N); (false, [69]%N); (true, [69]%N); (true, [84]%N); (false, [84]%N); (false, [69]%N)])); x_input := [49]%N |}; {| x_match := (Some true); x_ast := None; x_whole := false; x_errs := []; x_value := None; x_trace := (Some (true, [(true, [69]%N); (true, [84]%N); (false, [84]%N); (false, [69]%N); (true, [69]%N); (true, [84]%N); (false, [84]%N); (false, [69]%N); (true, [69]%N); (true, [84]%N); (false, [84]%N); (false, [69]%N)])); x_input := [49;43;50]%N |}; {| x_match := (Some true); x_ast := None; x_whole := false; x_errs := []; x_value := None; x_trace := (Some (true, [(true, [69]%N); (true, [84]%N); (false, [84]%N); (false, [69]%N); (true, [69]%N); (true, [84]%N); (false, [84]%N); (false, [69]%N); (true, [69]%N); (true, [84]%N); (false, [84]%N); (false, [69]%N); (true, [69]%N); (true, [84]%N); (false, [84]%N); (false, [69]%N)])); x_input := [49;43;50;43;51]%N |}]) = true.
Proof. vm_compute. reflexivity. Qed.
Example value_edge_ignore_shifts_sv_index : (conf_group true [] [83;32;60;45;32;126;65;32;39;43;39;32;66;10;65;32;60;45;32;60;32;91;48;45;57;93;43;32;62;10;66;32;60;45;32;60;32;91;48;45;57;93;43;32;62]%N (conf_case false {| h_act := [([65]%N, ANumber); ([66]%N, ANumber); ([83]%N, APass 0)]; h_enter := []; h_leave := []; h_pred := []; h_flag := false |})
  [{| x_match := (Some true); x_ast := None; x_whole := false; x_errs := []; x_value := (Some (2)%Z); x_trace := None; x_input := [49;43;50]%N |}; {| x_match := (Some true); x_ast := None; x_whole := false; x_errs := []; x_value := (Some (20)%Z); x_trace := None; x_input := [49;48;43;50;48]%N |}]) = true.
Proof. vm_compute. reflexivity. Qed.
Example value_edge_choice_index_value : (conf_group true [] [83;32;60;45;32;39;97;39;32;47;32;39;98;39;32;47;32;39;99;39]%N (conf_case false {| h_act := [([83]%N, AChoice)]; h_enter := []; h_leave := []; h_pred := []; h_flag := false |})
  [{| x_match := (Some true); x_ast := None; x_whole := false; x_errs := []; x_value := (Some (0)%Z); x_trace := None; x_input := [97]%N |}; {| x_match := (Some true); x_ast := None; x_whole := false; x_errs := []; x_value := (Some (1)%Z); x_trace := None; x_input := [98]%N |}; {| x_match := (Some true); x_ast := None; x_whole := false; x_errs := []; x_value := (Some (2)%Z); x_trace := None; x_input := [99]%N |}]) = true.
Proof. vm_compute. reflexivity. Qed.
Example value_edge_passthrough_first_child : (conf_group true [] [83;32;60;45;32;65;32;66;10;65;32;60;45;32;60;32;91;48;45;57;93;32;62;10;66;32;60;45;32;60;32;91;48;45;57;93;32;62]%N (conf_case false {| h_act := [([65]%N, ANumber); ([66]%N, ANumber); ([83]%N, APass 1)]; h_enter := []; h_leave := []; h_pred := []; h_flag := false |})
  [{| x_match := (Some true); x_ast := None; x_whole := false; x_errs := []; x_value := (Some (2)%Z); x_trace := None; x_input := [49;50]%N |}]) = true.
Proof. vm_compute. reflexivity. Qed.
