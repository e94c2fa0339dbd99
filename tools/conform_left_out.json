[
"indirect_left_recursion_through_macro",
"left_recursive_macro",
"left_recursive_macro_instantiation_not_shared",
"left_recursive_macro_two_instantiations",
"macro_argument_referring_to_own_parameter_under_left_recursion",
"nested_macro_in_left_recursive_cycle"
]