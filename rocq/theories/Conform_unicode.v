(** Generated by tools/mkconform.py from /repo/spec/tests/unicode: tests of the model, see Conform.v. *)
From Coq Require Import NArith ZArith.
From Verif Require Import Base Conform.
Example character_class_unicode_character_class_ranges : (conf_group true [] [83;32;60;45;32;39;97;39;32;91;227;129;132;45;227;129;138;65;227;129;149;67;45;69;227;129;159;45;227;129;168;227;129;175;93;32;39;98;39;10]%N (conf_case false no_hooks)
  [{| x_match := (Some true); x_ast := None; x_whole := false; x_errs := []; x_value := None; x_trace := None; x_input := [97;227;129;132;98]%N |}; {| x_match := (Some true); x_ast := None; x_whole := false; x_errs := []; x_value := None; x_trace := None; x_input := [97;227;129;134;98]%N |}; {| x_match := (Some true); x_ast := None; x_whole := false; x_errs := []; x_value := None; x_trace := None; x_input := [97;227;129;138;98]%N |}; {| x_match := (Some false); x_ast := None; x_whole := false; x_errs := []; x_value := None; x_trace := None; x_input := [97;227;129;139;98]%N |}; {| x_match := (Some true); x_ast := None; x_whole := false; x_errs := []; x_value := None; x_trace := None; x_input := [97;65;98]%N |}; {| x_match := (Some false); x_ast := None; x_whole := false; x_errs := []; x_value := None; x_trace := None; x_input := [97;66;98]%N |}; {| x_match := (Some true); x_ast := None; x_whole := false; x_errs := []; x_value := None; x_trace := None; x_input := [97;69;98]%N |}; {| x_match := (Some false); x_ast := None; x_whole := false; x_errs := []; x_value := None; x_trace := None; x_input := [97;70;98]%N |}; {| x_match := (Some false); x_ast := None; x_whole := false; x_errs := []; x_value := None; x_trace := None; x_input := [97;227;129;157;98]%N |}; {| x_match := (Some true); x_ast := None; x_whole := false; x_errs := []; x_value := None; x_trace := None; x_input := [97;227;129;159;98]%N |}; {| x_match := (Some true); x_ast := None; x_whole := false; x_errs := []; x_value := None; x_trace := None; x_input := [97;227;129;161;98]%N |}; {| x_match := (Some true); x_ast := None; x_whole := false; x_errs := []; x_value := None; x_trace := None; x_input := [97;227;129;168;98]%N |}; {| x_match := (Some false); x_ast := None; x_whole := false; x_errs := []; x_value := None; x_trace := None; x_input := [97;227;129;170;98]%N |}; {| x_match := (Some true); x_ast := None; x_whole := false; x_errs := []; x_value := None; x_trace := None; x_input := [97;227;129;175;98]%N |}; {| x_match := (Some false); x_ast := None; x_whole := false; x_errs := []; x_value := None; x_trace := None; x_input := [97;63;98]%N |}; {| x_match := (Some false); x_ast := None; x_whole := false; x_errs := []; x_value := None; x_trace := None; x_input := [97;227;129;130;98]%N |}]) = true.
Proof. vm_compute. reflexivity. Qed.
Example dot_dot_matches_one_codepoint : (conf_group true [] [83;32;60;45;32;39;97;39;32;46;32;39;98;39;10]%N (conf_case false no_hooks)
  [{| x_match := (Some true); x_ast := None; x_whole := false; x_errs := []; x_value := None; x_trace := None; x_input := [97;227;129;130;98]%N |}; {| x_match := (Some true); x_ast := None; x_whole := false; x_errs := []; x_value := None; x_trace := None; x_input := [97;195;165;98]%N |}; {| x_match := (Some true); x_ast := None; x_whole := false; x_errs := []; x_value := None; x_trace := None; x_input := [97;88;98]%N |}; {| x_match := (Some false); x_ast := None; x_whole := false; x_errs := []; x_value := None; x_trace := None; x_input := [97;98]%N |}; {| x_match := (Some false); x_ast := None; x_whole := false; x_errs := []; x_value := None; x_trace := None; x_input := [97;227;129;130;227;129;130;98]%N |}]) = true.
Proof. vm_compute. reflexivity. Qed.
Example identifiers_unicode_rule_names_japanese : (conf_group true [] [230;150;135;32;60;45;32;228;191;174;233;163;190;232;170;158;63;32;228;184;187;232;170;158;32;232;191;176;232;170;158;32;39;227;128;130;39;10;228;184;187;232;170;158;32;60;45;32;229;144;141;232;169;158;32;229;138;169;232;169;158;10;232;191;176;232;170;158;32;60;45;32;229;139;149;232;169;158;32;229;138;169;232;169;158;10;228;191;174;233;163;190;232;170;158;32;60;45;32;229;189;162;229;174;185;232;169;158;10;229;144;141;232;169;158;32;60;45;32;39;227;130;181;227;131;188;227;131;144;227;131;188;39;32;47;32;39;227;130;175;227;131;169;227;130;164;227;130;162;227;131;179;227;131;136;39;10;229;189;162;229;174;185;232;169;158;32;60;45;32;39;229;143;164;227;129;132;39;32;47;32;39;230;150;176;227;129;151;227;129;132;39;10;229;138;169;232;169;158;32;60;45;32;39;227;129;175;39;32;47;32;39;227;130;146;39;32;47;32;39;227;129;140;39;10;229;139;149;232;169;158;32;60;45;32;39;233;128;129;227;130;139;39;32;47;32;39;229;143;151;227;129;145;229;143;150;227;130;139;39;10]%N (conf_case false no_hooks)
  [{| x_match := (Some true); x_ast := None; x_whole := false; x_errs := []; x_value := None; x_trace := None; x_input := [227;130;181;227;131;188;227;131;144;227;131;188;227;129;175;233;128;129;227;130;139;227;130;146;227;128;130]%N |}; {| x_match := (Some true); x_ast := None; x_whole := false; x_errs := []; x_value := None; x_trace := None; x_input := [229;143;164;227;129;132;227;130;181;227;131;188;227;131;144;227;131;188;227;129;175;233;128;129;227;130;139;227;130;146;227;128;130]%N |}; {| x_match := (Some true); x_ast := None; x_whole := false; x_errs := []; x_value := None; x_trace := None; x_input := [230;150;176;227;129;151;227;129;132;227;130;175;227;131;169;227;130;164;227;130;162;227;131;179;227;131;136;227;129;140;229;143;151;227;129;145;229;143;150;227;130;139;227;129;175;227;128;130]%N |}; {| x_match := (Some false); x_ast := None; x_whole := false; x_errs := []; x_value := None; x_trace := None; x_input := [227;130;181;227;131;188;227;131;144;227;131;188;227;129;175;233;128;129;227;130;139;227;128;130]%N |}; {| x_match := (Some false); x_ast := None; x_whole := false; x_errs := []; x_value := None; x_trace := None; x_input := [227;130;181;227;131;188;227;131;144;227;131;188;227;128;130]%N |}]) = true.
Proof. vm_compute. reflexivity. Qed.
Example identifiers_unicode_rule_names_greek : (conf_group true [] [206;148;206;191;206;186;206;185;206;188;206;174;32;60;45;32;206;187;206;173;206;190;206;183;43;10;206;187;206;173;206;190;206;183;32;60;45;32;91;206;177;45;207;137;206;145;45;206;169;93;43;32;39;32;39;63;10]%N (conf_case false no_hooks)
  [{| x_match := (Some true); x_ast := None; x_whole := false; x_errs := []; x_value := None; x_trace := None; x_input := [206;187;206;181;206;190;206;183]%N |}; {| x_match := (Some true); x_ast := None; x_whole := false; x_errs := []; x_value := None; x_trace := None; x_input := [206;187;206;181;206;190;206;183;32;206;187;206;181;206;190;206;183]%N |}; {| x_match := (Some true); x_ast := None; x_whole := false; x_errs := []; x_value := None; x_trace := None; x_input := [206;177;206;178;206;179]%N |}; {| x_match := (Some false); x_ast := None; x_whole := false; x_errs := []; x_value := None; x_trace := None; x_input := [206;187;206;173;206;190;206;183]%N |}; {| x_match := (Some false); x_ast := None; x_whole := false; x_errs := []; x_value := None; x_trace := None; x_input := [] |}]) = true.
Proof. vm_compute. reflexivity. Qed.
Example literals_unicode_rule_names_and_literals : (conf_group true [] [230;150;135;32;60;45;32;228;191;174;233;163;190;232;170;158;63;32;228;184;187;232;170;158;32;232;191;176;232;170;158;32;39;227;128;130;39;10;228;184;187;232;170;158;32;60;45;32;229;144;141;232;169;158;32;229;138;169;232;169;158;10;232;191;176;232;170;158;32;60;45;32;229;139;149;232;169;158;32;229;138;169;232;169;158;10;228;191;174;233;163;190;232;170;158;32;60;45;32;229;189;162;229;174;185;232;169;158;10;229;144;141;232;169;158;32;60;45;32;39;227;130;181;227;131;188;227;131;144;227;131;188;39;32;47;32;39;227;130;175;227;131;169;227;130;164;227;130;162;227;131;179;227;131;136;39;10;229;189;162;229;174;185;232;169;158;32;60;45;32;39;229;143;164;227;129;132;39;32;47;32;39;230;150;176;227;129;151;227;129;132;39;10;229;139;149;232;169;158;32;60;45;32;39;232;144;189;227;129;161;39;32;47;32;39;229;190;169;230;151;167;227;129;151;39;10;229;138;169;232;169;158;32;60;45;32;39;227;129;140;39;32;47;32;39;227;130;146;39;32;47;32;39;227;129;159;39;32;47;32;39;227;129;190;227;129;153;39;32;47;32;39;227;129;171;39;10]%N (conf_case false no_hooks)
  [{| x_match := (Some true); x_ast := None; x_whole := false; x_errs := []; x_value := None; x_trace := None; x_input := [227;130;181;227;131;188;227;131;144;227;131;188;227;130;146;229;190;169;230;151;167;227;129;151;227;129;190;227;129;153;227;128;130]%N |}; {| x_match := (Some true); x_ast := None; x_whole := false; x_errs := []; x_value := None; x_trace := None; x_input := [229;143;164;227;129;132;227;130;181;227;131;188;227;131;144;227;131;188;227;129;140;232;144;189;227;129;161;227;129;159;227;128;130]%N |}; {| x_match := (Some false); x_ast := None; x_whole := false; x_errs := []; x_value := None; x_trace := None; x_input := [227;130;181;227;131;188;227;131;144;227;131;188;227;128;130]%N |}; {| x_match := (Some false); x_ast := None; x_whole := false; x_errs := []; x_value := None; x_trace := None; x_input := [] |}]) = true.
Proof. vm_compute. reflexivity. Qed.
