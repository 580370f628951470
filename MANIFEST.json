{
 "claims": [
  {
   "property": "C01",
   "status": "proved",
   "theorems": [
    "C01_interpretation_restored",
    "C01_after_block"
   ],
   "note": "Single thread, LIFO blocks (other orders: C13)."
  },
  {
   "property": "C02",
   "status": "proved",
   "theorems": [
    "C02_coproduct_keys",
    "C02_right_wins",
    "C02_left_kept"
   ],
   "note": ""
  },
  {
   "property": "C03",
   "status": "proved",
   "theorems": [
    "C03_C04_C05_laws_in_context",
    "C03_coproduct_assoc"
   ],
   "note": "Equivalence in every program context, including inside handlers and default rules."
  },
  {
   "property": "C04",
   "status": "proved",
   "theorems": [
    "C03_C04_C05_laws_in_context",
    "C04_coproduct_units"
   ],
   "note": "The left unit law needs handler(); under interpreter() coproduct({}, a) differs from a because it saves arguments (see C07)."
  },
  {
   "property": "C05",
   "status": "proved",
   "theorems": [
    "C03_C04_C05_laws_in_context",
    "C05_nested_handlers"
   ],
   "note": ""
  },
  {
   "property": "C06",
   "status": "proved",
   "theorems": [
    "C06_forwarding_order"
   ],
   "note": ""
  },
  {
   "property": "C07",
   "status": "partial",
   "theorems": [
    "C07_fwd_current_args_partial",
    "C07_fwd_current_args_default_partial",
    "C07_parameterless_handler_refuted",
    "C07_interpreter_refuted"
   ],
   "note": "Holds for handlers with parameters installed by handler(); false for parameterless handlers and handlers installed by interpreter()/evaluate(intp=...)."
  },
  {
   "property": "C08",
   "status": "proved",
   "theorems": [
    "C08_default_and_free_rule",
    "C08_fwd_outside_handler"
   ],
   "note": "Default bodies are arbitrary code not using the library in the statement; the free rule's renaming of binders is in the term model."
  },
  {
   "property": "C09",
   "status": "partial",
   "theorems": [
    "C09_apply_sees_op_partial",
    "C09_apply_two_levels_refuted",
    "C09_apply_called_twice_refuted"
   ],
   "note": "False for Operation.__apply__ and an operation class two or more levels below Operation."
  },
  {
   "property": "C10",
   "status": "proved",
   "theorems": [
    "C10_refines_reference",
    "C10_deterministic"
   ],
   "note": ""
  },
  {
   "property": "C11",
   "status": "proved",
   "theorems": [
    "C11_never_sees_other_threads",
    "C12_as_if_alone_partial"
   ],
   "note": "Any start and schedule: only own handlers are ever visible; once the library has been used, each thread reads exactly what it would read alone."
  },
  {
   "property": "C12",
   "status": "partial",
   "theorems": [
    "C12_as_if_alone_partial",
    "C12_first_use_refuted"
   ],
   "note": "True once get_runtime() has completed once in the process; false at concurrent first use (two Runtime objects)."
  },
  {
   "property": "C13",
   "status": "partial",
   "theorems": [
    "C13_nested_restores_partial",
    "C13_any_order_refuted"
   ],
   "note": "True for last-in-first-out exits; false otherwise."
  },
  {
   "property": "C14",
   "status": "partial",
   "theorems": [
    "C14_construct_free_variables_partial",
    "C14_set_of_binders_refuted"
   ],
   "note": "Holds when operations occur only in containers that evaluate traverses; false when the binders are given in a set."
  },
  {
   "property": "C15",
   "status": "partial",
   "theorems": [
    "C15_construct_alpha_fresh_partial",
    "C15_reachable_hygiene",
    "C15_set_of_binders_refuted"
   ],
   "note": "As C14."
  },
  {
   "property": "C16",
   "status": "partial",
   "theorems": [
    "C16_capture_avoiding_partial",
    "C16_capture_avoiding_general_partial",
    "C16_shadowed_refuted",
    "C16_handler_arity"
   ],
   "note": "Holds for terms built by calling operations and evaluating, with handlers for the program's own variables; false for a variable that is also bound further inside (reachable by taking a function body apart or applying a function to itself)."
  },
  {
   "property": "C17",
   "status": "partial",
   "theorems": [
    "C17_fvsof_reachable_partial",
    "C17_fvsof_bounds_partial",
    "C17_fvsof_opened_refuted"
   ],
   "note": "Exact for terms built by calling operations and evaluating; on other terms it can miss a variable that is both free and bound."
  },
  {
   "property": "C18",
   "status": "partial",
   "theorems": [
    "C18_beta_partial",
    "C18_beta_general_partial",
    "C18_unknown_keyword_rejected",
    "C18_self_application_refuted",
    "C18_arity_refuted",
    "C18_variable_as_value_refuted",
    "C18_operation_body_refuted"
   ],
   "note": "Beta holds for freshly built functions and, in general, when the variables are not bound again in the body; false after self-application, for wrong numbers of positional arguments, and for operations used as values."
  },
  {
   "property": "C19",
   "status": "proved",
   "theorems": [
    "C19_evaluate_identity"
   ],
   "note": ""
  },
  {
   "property": "C20",
   "status": "proved",
   "theorems": [
    "C20_evaluation_order",
    "C20_homomorphism"
   ],
   "note": ""
  },
  {
   "property": "C21",
   "status": "proved",
   "theorems": [
    "C21_inferred_scopes",
    "C21_binding_relation",
    "C21_root",
    "C21_binder_in_result_rejected"
   ],
   "note": ""
  },
  {
   "property": "C22",
   "status": "partial",
   "theorems": [
    "C22_reflexive",
    "C22_transitive",
    "C22_symmetric_partial",
    "C22_documented_partial",
    "C22_exact",
    "C22_documented_is_equivalence",
    "C22_symmetric_refuted",
    "C22_number_terms_refuted"
   ],
   "note": "Reflexive and transitive; symmetric except when a list spells a text on the right; under handlers for number equality the result on number terms against other values is arbitrary."
  },
  {
   "property": "C23",
   "status": "partial",
   "theorems": [
    "C23_no_operations_partial",
    "C23_no_number_terms_partial",
    "C23_no_operations_refuted"
   ],
   "note": "False when a non-term on the left is compared with a number term on the right."
  },
  {
   "property": "C24",
   "status": "partial",
   "theorems": [
    "C24_lookup_exact",
    "C24_single_inheritance_partial",
    "C24_no_diamond_partial",
    "C24_diamond_refuted",
    "C24_failed_class_leaks_refuted"
   ],
   "note": "Holds for single inheritance and for multiple inheritance without an overridden common ancestor; false for diamonds; a failed class statement leaks its marks to the next class."
  },
  {
   "property": "C25",
   "status": "partial",
   "theorems": [
    "C25_printed_names_partial",
    "C25_suffixed_name_refuted",
    "C25_in_container_refuted"
   ],
   "note": "Holds when no operation's name is another's followed by ! and a number; false otherwise, and for operations inside containers printed by repr (sets, dataclasses)."
  },
  {
   "property": "C26",
   "status": "partial",
   "theorems": [
    "C26_kept",
    "C26_sound_partial",
    "C26_cycle_refuted",
    "C26_conflict_refuted",
    "C26_subclass_refuted",
    "C26_function_refuted"
   ],
   "note": "Bindings are kept: always. Soundness: for concrete (variable-free) subtypes and canonical forms; with variables on both sides a cyclic substitution or an ignored conflict is returned; user classes are identified with their topmost ancestor; parameters of functions are unified covariantly."
  },
  {
   "property": "C27",
   "status": "proved",
   "theorems": [
    "C27_variables",
    "C27_parts",
    "C27_ends",
    "C27_cycles"
   ],
   "note": "All types of the fragment; unions are rebuilt flat and without repetitions, so the part-by-part statement is for union-free types."
  },
  {
   "property": "C28",
   "status": "partial",
   "theorems": [
    "C28_projection_partial",
    "C28_prompts_partial",
    "C28_apply_partial",
    "C28_other_handles_refuted",
    "C28_apply_diverges_refuted",
    "C28_copy_visible_refuted",
    "C28_exception_leaks_refuted",
    "C28_enclosing_refuted",
    "C28_uncovered_refuted"
   ],
   "note": "Proved for handlers calling only what their own component handles or what nobody does, arguments with a value in every component, and operations handled by some component; each condition is shown needed by a refutation."
  },
  {
   "property": "C29",
   "status": "partial",
   "theorems": [
    "C29_once_partial",
    "C29_reentrant_refuted"
   ],
   "note": "Proved when the function does not call its own cell; with re-entrancy it may succeed twice with different values."
  },
  {
   "property": "C30",
   "status": "partial",
   "theorems": [
    "C30_constructor",
    "C30_union_members",
    "C30_union_laws",
    "C30_union_nary",
    "C30_union_one",
    "C30_union_none_refuted",
    "C30_name_self_refuted"
   ],
   "note": "All laws hold for one or more operands; union() of no operands is a TypeError and a name called self is refused."
  },
  {
   "property": "C31",
   "status": "proved",
   "theorems": [
    "C31_desugar_meaning",
    "C31_desugar_rejects"
   ],
   "note": "All shapes and keys of None, ellipsis, integers, slices (positive step) and names; lists and arrays as index elements are not modelled."
  },
  {
   "property": "C32",
   "status": "partial",
   "theorems": [
    "C32_bind_torch_partial",
    "C32_bind_jax_partial",
    "C32_unbind",
    "C32_bind_unbind_torch",
    "C32_bind_unbind_jax",
    "C32_repeated_name_refuted",
    "C32_twice",
    "C32_missing"
   ],
   "note": "Proved for non-empty named axes; torch additionally needs each bound name to index one axis, and fails otherwise."
  },
  {
   "property": "C33",
   "status": "partial",
   "theorems": [
    "C33_sizesof_torch",
    "C33_sizesof_jax_partial",
    "C33_jax_none_refuted"
   ],
   "note": "torch: for all expressions. jax: without None and ellipsis in keys of outer indexing; with them a wrong size or an IndexError."
  },
  {
   "property": "C34",
   "status": "partial",
   "theorems": [
    "C34_cond_n_selects_partial",
    "C34_cond_n_exact",
    "C34_not_covered_refuted",
    "C34_second_name_refuted",
    "C34_overlap_refuted",
    "C34_errors"
   ],
   "note": "Exact result given; the selection claim holds for single-name sets of which exactly one contains the case."
  },
  {
   "property": "C35",
   "status": "partial",
   "theorems": [
    "C35_linearize_partial",
    "C35_extraction",
    "C35_fails",
    "C35_unhashable_refuted",
    "C35_text_refuted"
   ],
   "note": "Proved without text-typed objects inside; an object of type 'text' loses its JSON; an object whose 'type' is a list or object raises TypeError."
  },
  {
   "property": "C36",
   "status": "partial",
   "theorems": [
    "C36_round_trip",
    "C36_tuple_accepts",
    "C36_named_accepts",
    "C36_decoded_type",
    "C36_schema_accepted",
    "C36_malformed_refuted"
   ],
   "note": "Round trip for all types built from scalars, complex, tuples, named tuples, lists; surplus fields and items are accepted and dropped, anything decodes as the empty tuple."
  },
  {
   "property": "C37",
   "status": "partial",
   "theorems": [
    "C37_success_partial",
    "C37_failure",
    "C37_nested",
    "C37_id_clash_refuted"
   ],
   "note": "Failure and nested calls: no conditions. Success: when ids given by the model are new; a repeated id overwrites the stored message."
  },
  {
   "property": "C38",
   "status": "partial",
   "theorems": [
    "C38_answered_partial",
    "C38_id_clash_refuted"
   ],
   "note": "Proved when ids given by the model are new; with a repeated id an answer is left without its call."
  },
  {
   "property": "C39",
   "status": "proved",
   "theorems": [
    "C39_retry"
   ],
   "note": "For stop_after_attempt; ids given by the model must be new."
  },
  {
   "property": "C40",
   "status": "partial",
   "theorems": [
    "C40_exact_partial",
    "C40_distinct",
    "C40_raises",
    "C40_clash_refuted",
    "C40_property_refuted"
   ],
   "note": "Exact when no name shows two tools; a variable named like an agent's tool (a__b) loses one of the two; a raising property on an agent makes collection raise."
  },
  {
   "property": "C41",
   "status": "proved",
   "theorems": [
    "C41_exact",
    "C41_total",
    "C41_verdict"
   ],
   "note": "json.loads is given; for output lines that are diagnostics with severity and integer line."
  },
  {
   "property": "C42",
   "status": "partial",
   "theorems": [
    "C42_session_partial",
    "C42_output",
    "C42_environment_kept",
    "C42_late_binding",
    "C42_raise_refuted",
    "C42_late_binding_refuted"
   ],
   "note": "Proved under the unsafe provider. Under the restricted one bindings of a raising snippet are lost and earlier functions do not see later bindings; output and the template's environment are proved for both."
  },
  {
   "property": "C43",
   "status": "partial",
   "theorems": [
    "C43_exact_partial",
    "C43_failed",
    "C43_deletion_refuted",
    "C43_raise_refuted",
    "C43_shadowed_refuted"
   ],
   "note": "New and changed bindings come back and others stay; deletions do not come back, a raise loses the bindings, names of the guards are shadowed."
  },
  {
   "property": "C44",
   "status": "partial",
   "theorems": [
    "C44_merged",
    "C44_pieces_unique",
    "C44_plain",
    "C44_conversion_refuted"
   ],
   "note": "Order, merging and blocks for all templates; a conversion or format spec acts on each text part of a field apart. string.Formatter.parse and dedent are not modelled."
  },
  {
   "property": "C45",
   "status": "partial",
   "theorems": [
    "C45_trace_agrees_partial",
    "C45_calling_conventions_refuted",
    "C45_untraceable_refuted"
   ],
   "note": "Holds when positional parameters are passed by position and keyword-only ones by keyword, all given; false for keywords naming positional parameters, omitted defaults, positional-only parameters and a keyword-only parameter called body."
  },
  {
   "property": "C46",
   "status": "partial",
   "theorems": [
    "C46_partial_eval",
    "C46_getitem",
    "C46_partial_eval_ok",
    "C46_torch_partial",
    "C46_torch_slice_refuted"
   ],
   "note": "For an array indexed by names. In PyTorch the values inside are torch_getitem's, which are right with slices of whole axes only: x[a(), 1:3] has an axis too many."
  },
  {
   "property": "C47",
   "status": "partial",
   "theorems": [
    "C47_argsof_partial",
    "C47_argsof_apply_refuted"
   ],
   "note": "Proved without apply handlers; for an analysis that answers through apply the first argument is dropped (args[2:])."
  },
  {
   "property": "C48",
   "status": "partial",
   "theorems": [
    "C48_requests_partial",
    "C48_retry_refuted"
   ],
   "note": "Proved without retries, or when undecodable calls come alone; otherwise the retry answers only the undecodable call."
  },
  {
   "property": "C49",
   "status": "partial",
   "theorems": [
    "C49_tools",
    "C49_call_partial",
    "C49_method_refuted"
   ],
   "note": "Template.tools: always. When called: unless an agent in scope has it; a template method of an agent is offered to itself as self__name."
  },
  {
   "property": "C50",
   "status": "partial",
   "theorems": [
    "C50_readers_partial",
    "C50_readers_exact",
    "C50_two_names_refuted"
   ],
   "note": "Proved when each tool has one name; a tool bound to two variables raises AssertionError."
  },
  {
   "property": "C51",
   "status": "partial",
   "theorems": [
    "C51_recorded_partial",
    "C51_failed_refuted"
   ],
   "note": "Every snippet's source is recorded, also of those that raise."
  },
  {
   "property": "C52",
   "status": "partial",
   "theorems": [
    "C52_source_partial",
    "C52_repl_partial",
    "C52_defined",
    "C52_template",
    "C52_decorator_refuted"
   ],
   "note": "The region is the spliced code except the decorator lines of its first statement; the definition spliced into is one starting at the template's line."
  },
  {
   "property": "C53",
   "status": "partial",
   "theorems": [
    "C53_instance_partial",
    "C53_union",
    "C53_order_refuted",
    "C53_union_refuted",
    "C53_capture_refuted"
   ],
   "note": "Proved for instances of patterns whose unions have no variables, and for variable-free unions against what a member takes; with subclasses the order of arguments decides, a variable in a union beside a class that fits fails, a bare generic class shows the TypeVar of its class statement."
  },
  {
   "property": "C54",
   "status": "partial",
   "theorems": [
    "C54_ends",
    "C54_idempotent_partial",
    "C54_leak_refuted"
   ],
   "note": "Idempotent when ... is used only for parameters and variadic tuples; a bare generic subclass has free variables in its canonical form."
  },
  {
   "property": "C55",
   "status": "proved",
   "theorems": [
    "C55_ends",
    "C55_variables",
    "C55_parts"
   ],
   "note": "For types as python builds them (unions flat and without repetitions)."
  },
  {
   "property": "C56",
   "status": "proved",
   "theorems": [
    "C56_guards",
    "C56_session"
   ],
   "note": "Any environment, any earlier snippets, any ending. RestrictedPython's static checks are not modelled."
  },
  {
   "property": "C57",
   "status": "partial",
   "theorems": [
    "C57_typeof_sound_partial",
    "C57_inferred_sound_partial",
    "C57_mixed_refuted",
    "C57_text_refuted",
    "C57_number_refuted",
    "C57_items"
   ],
   "note": "Proved for signatures and arguments whose types say all about their values (no bare generic classes, Any or function types, no unions in the result). Refuted for collections of mixed types, for texts as sequences, and for the arithmetic of number terms."
  },
  {
   "property": "C58",
   "status": "partial",
   "theorems": [
    "C58_operators_partial",
    "C58_binary_exact",
    "C58_raises",
    "C58_stages",
    "C58_compare_refuted",
    "C58_equal_refuted",
    "C58_index_refuted",
    "C58_untyped_refuted",
    "C58_equal",
    "C58_equal_values",
    "C58_compared"
   ],
   "note": "Proved without ==, operator.index and untyped variables, with comparisons of numbers that answer each other's; refuted for these: an int compared with a float evaluates to NotImplemented, == is syntactic, operator.index raises, a sum with an untyped term on the right has no operators."
  },
  {
   "property": "C59",
   "status": "partial",
   "theorems": [
    "C59_log_prob_partial",
    "C59_mean_partial",
    "C59_shapes_partial",
    "C59_bind_arrays",
    "C59_index_arrays",
    "C59_ranks_refuted",
    "C59_short_value_refuted",
    "C59_entropy_refuted",
    "C59_support_refuted"
   ],
   "note": "Proved for log_prob, mean, batch_shape and event_shape when all array parameters have equally many batch axes and the value at least the axes of batch and event; otherwise results are silently wrong; entropy comes without names and enumerate_support with the name on the wrong axis. Sampling is not modelled."
  },
  {
   "property": "C60",
   "status": "partial",
   "theorems": [
    "C60_expand_partial",
    "C60_numbers_refuted",
    "C60_ranks_refuted",
    "C60_unfit_refuted"
   ],
   "note": "Proved for array parameters with equally many batch axes; numbers are not expanded, parameters of different ranks raise AssertionError, an unfit shape is not an error."
  },
  {
   "property": "C61",
   "status": "partial",
   "theorems": [
    "C61_rebuild_partial",
    "C61_student_refuted",
    "C61_wishart_refuted"
   ],
   "note": "Proved for all classes of the table but two; StudentT is rebuilt with loc as df, Wishart with its Cholesky factor as covariance. ExpandedDistribution is not modelled."
  },
  {
   "property": "C62",
   "status": "partial",
   "theorems": [
    "C62_observation_partial",
    "C62_sample",
    "C62_frames",
    "C62_long_observation_refuted",
    "C62_apply_fails"
   ],
   "note": "Samples and plates: always. Observations: with at most as many axes as the distribution; with more the name goes to the wrong axis."
  },
  {
   "property": "C63",
   "status": "partial",
   "theorems": [
    "C63_methods_partial",
    "C63_own",
    "C63_same_name_refuted",
    "C63_underscore_refuted",
    "C63_classmethod_refuted",
    "C63_copy_refuted",
    "C63_dataclass_refuted"
   ],
   "note": "Proved for hierarchies where no two operations have the same Class_method name and no class method is overridden, without copies and dataclasses; for each of these what is missing is refuted (wrong method, endless recursion, the original's operation, terms of a copy's operation)."
  },
  {
   "property": "C64",
   "status": "partial",
   "theorems": [
    "C64_indexed_partial",
    "C64_fits_partial",
    "C64_slice_refuted",
    "C64_transposed_refuted",
    "C64_negative_refuted",
    "C64_past_end_refuted",
    "C64_integer_refuted",
    "C64_list_refuted"
   ],
   "note": "Proved for keys of whole-axis slices, None, an ellipsis, integers and index tensors (of any shapes, when integers are not apart from tensors with axes). Each missing case is refuted: slices of parts leave axes or are transposed, bounds are not counted from the end or cut off, integers apart move axes, lists are not paired."
  },
  {
   "property": "C65",
   "status": "partial",
   "theorems": [
    "C65_pointwise",
    "C65_evaluate",
    "C65_named",
    "C65_conflict",
    "C65_sized_term_refuted"
   ],
   "note": "Values at positions: always, terms and later evaluation included. Evaluated at once: when each argument is an array, an array with names or a name; a nested term of names, as in x[a()] + (a() + 1), is never evaluated although its names have sizes."
  },
  {
   "property": "C66",
   "status": "partial",
   "theorems": [
    "C66_gather",
    "C66_gather_ok",
    "C66_gather_range",
    "C66_gather_ignores",
    "C66_gather_all",
    "C66_stack",
    "C66_stack_same",
    "C66_binds_refuted",
    "C66_twice_refuted",
    "C66_mixed_refuted",
    "C66_names_refuted"
   ],
   "note": "Values at positions, sizes, success and range errors: always. The documented binding is refuted: the variable stays free with the positions numbered anew, so gathering twice fails and the result does not combine with the value it came from. Names and dimensions can disagree."
  },
  {
   "property": "C67",
   "status": "partial",
   "theorems": [
    "C67_transformed",
    "C67_vmap",
    "C67_vmap_meaning",
    "C67_jacobian",
    "C67_grad",
    "C67_hessian",
    "C67_programs",
    "C67_jit_partial",
    "C67_jit_sound_partial",
    "C67_jit_refuted",
    "C67_jit_arguments_refuted",
    "C67_keywords_refuted",
    "C67_out_dims_refuted",
    "C67_argnums_refuted",
    "C67_grad_refuted",
    "C67_terms_refuted",
    "C67_jvp_refuted",
    "C67_keywords_none"
   ],
   "note": "Proved for every lawful transformation, hence vmap (results along axis 0), jacobians, grad and hessian of one argument, on arrays with names; jit when the shapes are new or names are the same in all calls. Refuted: jit when the names depend on the shapes or arguments have names, keyword arguments, out_dims=1, tuples of argnums, grad of a function with names in its result, unevaluated arguments, jvp with several results."
  },
  {
   "property": "C68",
   "status": "partial",
   "theorems": [
    "C68_evaluate_partial",
    "C68_instance",
    "C68_history_refuted",
    "C68_base_refuted",
    "C68_subclass_refuted",
    "C68_callable_refuted",
    "C68_forward_refuted",
    "C68_generic_refuted",
    "C68_reserved_refuted",
    "C68_abstract_refuted",
    "C68_slots_refuted",
    "C68_init_refuted"
   ],
   "note": "Proved for all programs and histories when no class in use has a base class that is in use or registered (unless it was registered first), and when a term is an instance is proved exactly. Refuted: after a term of a base class was made, terms of the subclass have the base class's methods; values of subclasses; callable dataclasses, forward references, generic fields, fields named args, abstract classes, slots, init=False."
  },
  {
   "property": "C69",
   "status": "partial",
   "theorems": [
    "C69_advertised",
    "C69_received_partial",
    "C69_accepted",
    "C69_schema_partial",
    "C69_round_trip_partial",
    "C69_result_partial",
    "C69_name_refuted",
    "C69_positional_refuted",
    "C69_star_refuted",
    "C69_keywords_refuted",
    "C69_variadic_refuted",
    "C69_named_refuted",
    "C69_namedtuple_refuted",
    "C69_complex_refuted"
   ],
   "note": "Advertised names: always. Schema and acceptance: parameters that can be given by name. Round trips and results: tools stored under their own name, values without variadic and named tuples, complex numbers in lists of one runtime type only. Each exception is refuted: a tool stored under another name, positional-only parameters, *args, **kwargs, tuple[T, ...], named tuples (a tool returning one ends the conversation with an error no handler catches), mixed lists of complex numbers."
  },
  {
   "property": "C70",
   "status": "partial",
   "theorems": [
    "C70_inlining_keeps_meaning_partial",
    "C70_no_reference_left",
    "C70_inlining_ends_partial",
    "C70_inlining_once",
    "C70_no_other_error",
    "C70_other_references_kept",
    "C70_recursive_definitions_fail",
    "C70_recursive_types_refuted",
    "C70_constraints_beside_references_refuted",
    "C70_descriptions_beside_references_refuted",
    "C70_property_names_refuted"
   ],
   "note": "Proved for schemas whose references stand alone among constraints, whose properties are not named $ref or $defs, and (for termination) without recursive definitions. Each exception is refuted: recursive types always end in RecursionError, constraints and descriptions beside a reference are lost, a property $defs is dropped and a property $ref raises AttributeError."
  },
  {
   "property": "C71",
   "status": "partial",
   "theorems": [
    "C71_takes",
    "C71_decoded_partial",
    "C71_signature",
    "C71_decodes_partial",
    "C71_round_trip_partial",
    "C71_decorated_refuted",
    "C71_values_refuted",
    "C71_optional_refuted",
    "C71_none_refuted",
    "C71_forms_refuted",
    "C71_builtin_refuted",
    "C71_context_refuted",
    "C71_identifiers"
   ],
   "note": "Proved for functions without decorators whose parameters are all positional without defaults beyond n; round trips for such functions with a return annotation, whose variables are in the context. Each exception is refuted: decorators can give a function that cannot be called so, Python callables are not checked, functions with defaults or *args are refused, Callable[[...], None] decodes nothing, lambdas, methods, classes and built-ins never come back, a variable missing from the context is noticed only at the call. Types of parameters are not modelled; the type checker is any check that may refuse."
  },
  {
   "property": "C72",
   "status": "partial",
   "theorems": [
    "C72_unbind_partial",
    "C72_succeeds_partial",
    "C72_bind_partial",
    "C72_bind_succeeds_partial",
    "C72_unbind_bind_partial",
    "C72_bind_unbind_partial",
    "C72_pyro_steps",
    "C72_pyro_events",
    "C72_mean_partial",
    "C72_log_prob_partial",
    "C72_numpyro_steps_refuted",
    "C72_numpyro_other_names_refuted",
    "C72_broadcast_refuted",
    "C72_ranks_refuted",
    "C72_event_axes_refuted",
    "C72_scalar_refuted"
   ],
   "note": "Proved for parameters that all have the full number of batch axes (NumPyro: also arrays without axes, in unbind_dims), without names in NumPyro. Each exception is refuted: NumPyro ignores parameters that have names, so naming in two steps or after bind_dims loses names silently; broadcast parameters raise ValueError; parameters of fewer axes, and event axes, are named wrongly without an error; with an array without axes the round trip is no distribution. Distributions as parameters (Independent) are not modelled."
  },
  {
   "property": "C73",
   "status": "partial",
   "theorems": [
    "C73_sound_partial",
    "C73_decides_partial",
    "C73_closed_partial",
    "C73_again_partial",
    "C73_one_result",
    "C73_own_variable_refuted",
    "C73_constant_function_refuted",
    "C73_sharing_refuted",
    "C73_ends_refuted",
    "C73_functions_refuted",
    "C73_calls_refuted",
    "C73_fuel"
   ],
   "note": "Proved for all programs of integers, variables, additions, lets and (curried) functions of integers whose functions depend on their parameters and whose lets do not mention their own variable in the value: the run ends, the result means the same, and for integer programs the normal form is canonical. False beyond: Let(x, x()+z(), x()+x()) gives 2x+3z (sort_add calls the handled variable again); Lam(y, 5) becomes 5; a function shared by a let is captured (twice twice) or loops forever although simply typed; functions and calls of unknown functions have no canonical form."
  },
  {
   "property": "C74",
   "status": "partial",
   "theorems": [
    "C74_operators_partial",
    "C74_jax_branches_partial",
    "C74_jax_if_raises",
    "C74_stages",
    "C74_torch_mod_refuted",
    "C74_torch_mod_sides_refuted",
    "C74_torch_if_refuted",
    "C74_torch_mod",
    "C74_torch_mod_integers"
   ],
   "note": "Proved for all expressions without conditionals (JAX: with them, whenever they build) and, for PyTorch, without %. False there: % on a free tensor is torch.fmod, so x % 3 at -1 gives -1 and not 2, and depends on which side is free; `if` on a free tensor takes the first branch. NumPy arrays as operands, divmod and round are not modelled; what the libraries' functions compute is arbitrary, except that they give arrays and that comparisons mirror."
  },
  {
   "property": "C75",
   "status": "partial",
   "theorems": [
    "C75_shapes_partial",
    "C75_log_prob_partial",
    "C75_mean_partial",
    "C75_unbind_partial",
    "C75_bind_partial",
    "C75_unbind_refuted",
    "C75_bind_none_refuted",
    "C75_none_refuted",
    "C75_too_many_refuted",
    "C75_expand_refuted"
   ],
   "note": "Proved for to_event with a number, nested in any way, over distributions with parameters of full rank (as in C59, C72). False: to_event() without a number also takes the axes of the names, so event_shape has them and log_prob raises, and bind_dims puts them into the event; to_event(n) with n beyond the batch axes takes names instead of raising; unbind_dims beyond the batch axes names event axes; expand of a to_event term returns it unchanged. sample, variance, entropy and Independent's own checks are not modelled."
  },
  {
   "property": "C76",
   "status": "partial",
   "theorems": [
    "C76_scoped_partial",
    "C76_untouched_partial",
    "C76_unused_partial",
    "C76_frozen_refuted",
    "C76_deleted_refuted",
    "C76_tools_refuted",
    "C76_early_tools_refuted",
    "C76_below_refuted"
   ],
   "note": "Proved for PythonRepl around the provider and all scripts that list tools only after the first request of a call: one session per call, shared by its snippets, visible to the rest of the call, gone afterwards. False: the first request copies every visible name, so the rest of the call no longer sees what tools bind even if no code is run; a deleted lexical name stays visible; template.tools outside a call puts such a copy (and what its exec_code binds) into the template's context for good, because the default session splices itself into the ChainMap it is given; before the first request it takes the session away from the call's environment; with the provider installed outside, every request makes a new session and deleted names come back."
  },
  {
   "property": "C77",
   "status": "partial",
   "theorems": [
    "C77_sound",
    "C77_add",
    "C77_order_partial",
    "C77_commutes_partial",
    "C77_sum_evaluates_partial",
    "C77_let_evaluates_partial",
    "C77_opt_partial",
    "C77_rewriting_partial",
    "C77_nested_refuted",
    "C77_let_sum_refuted",
    "C77_empty_refuted",
    "C77_record_refuted",
    "C77_duplicates_refuted",
    "C77_strings_refuted",
    "C77_fused_refuted",
    "C77_rewriting_refuted"
   ],
   "note": "Soundness and addition: all programs and values. Order: numbers and nested semi-ring dictionaries. Complete evaluation: bodies without binders over their own variables. False: a sum inside a sum (or a let) over a known dictionary raises AttributeError when its body uses the outer variables; a sum over the empty dictionary can raise; a record without variables as body leaves a term; duplicate keys in Dict are not added; sums of strings depend on the order; the fusion rule never fires on Dicts of pairs, and its right-hand side binds the second key to the first value."
  },
  {
   "property": "C78",
   "status": "partial",
   "theorems": [
    "C78_trace_partial",
    "C78_elbo_partial",
    "C78_step_partial",
    "C78_data_in_plates_drawn",
    "C78_data_in_plates_refuted",
    "C78_duplicates_refuted",
    "C78_replay_refuted",
    "C78_seed_refuted",
    "C78_function_refuted",
    "C78_position_refuted",
    "C78_trace_inside_refuted"
   ],
   "note": "Proved for all programs whose data is given by keyword and not to distributions that plates expand, with tensors as initial values; the loss for programs that do not reuse names of samples. False: a plate that expands a distribution drops obs, so data is replaced by a draw; two samples of one name count once; a guide's parameter with the name of a model's sample is replayed as its value; seed always raises RuntimeError since set_rng_seed forwards to the default; a function as initial_value is not called; obs by position is refused under trace and plate; a trace inside a plate records the unexpanded distribution. Gradients and optimisers are not modelled."
  },
  {
   "property": "C79",
   "status": "partial",
   "theorems": [
    "C79_found",
    "C79_ends_partial",
    "C79_never_refuted",
    "C79_zero_refuted",
    "C79_different_refuted",
    "C79_running"
   ],
   "note": "What is returned: all programs, widths from 1, random states and lawful heaps. Ends: programs in which every choice raises the score. False: expanded candidates stay in the beam until others with a greater score displace them, so with scores that never rise above 0 (logarithms of probabilities) the search never returns, whatever is chosen; a width of 0 returns the unfinished start; choices are drawn independently, so one run can fill the beam. Scores are integers (no rounding or NaN); programs that catch Suspend are outside."
  },
  {
   "property": "C80",
   "status": "partial",
   "theorems": [
    "C80_reads_partial",
    "C80_writes_partial",
    "C80_mapping_writes_partial",
    "C80_arguments_refuted",
    "C80_old_generics_refuted",
    "C80_base_refuted",
    "C80_grandparent_refuted",
    "C80_readonly_refuted",
    "C80_forgets_refuted",
    "C80_absent_refuted",
    "C80_mapping_refuted",
    "C80_delete_refuted",
    "C80_bounded_refuted"
   ],
   "note": "Proved for classes whose parameters are declared by the class statement and resolved at most one step up, with canonical fields (no list, dict, set) where there are parameters, and dictionaries made without further keys. False otherwise: a list field drops the arguments (Datum[str] passes as Datum[int]), the base's arguments and ReadOnly; Generic[T] parameters are never substituted; parameters two bases up stay free; a ReadOnly field of the type can be written through the pattern; with further keys an undeclared optional field or a mapping is unsound; a mutable mapping deletes required fields; mutable fields with a bounded variable never unify. Recursive typed dictionaries are outside the model."
  },
  {
   "property": "C81",
   "status": "partial",
   "theorems": [
    "C81_sums_partial",
    "C81_summands_partial",
    "C81_brackets_partial",
    "C81_again",
    "C81_order_of_rules",
    "C81_printed_refuted",
    "C81_zero_refuted",
    "C81_commuted_refuted",
    "C81_floats_refuted",
    "C81_floats_left_refuted"
   ],
   "note": "Proved for all expressions of integers (the order of rules for floats too). False: the README prints add(2, add(add(x(), 1), add(5, y()))) and add(8, add(x(), y())), but Python brackets the other way and the result is add(add(8, x()), y()); a sum of constants that is 0 is kept, so x() and x() + 1 + -1 differ; only constants are commuted; floats are reassociated (1e16 + (1.0 + x()) changes its value at x() = 1.0) but not gathered. bool constants are not modelled."
  },
  {
   "property": "C82",
   "status": "partial",
   "theorems": [
    "C82_lexical_partial",
    "C82_one_function_partial",
    "C82_accepted_partial",
    "C82_fields_partial",
    "C82_same_import",
    "C82_returned_refuted",
    "C82_recursion_refuted",
    "C82_namesake_refuted",
    "C82_helper_refuted",
    "C82_wrapper_refuted",
    "C82_unbound_refuted",
    "C82_later_refuted",
    "C82_field_refuted",
    "C82_static_refuted",
    "C82_words"
   ],
   "note": "Proved for @Template.define used directly where at most one function is around, or all further ones are still running and are the innermost running functions of their names; for names that are bound where they belong (Python 3.12: and unchanged since). False: an enclosing function that has returned is lost; with recursion another call's variables are shown; a caller of the same name, even in another module, gives its variables; a helper in another module gives its globals; a wrapper without functools.wraps loses the enclosing functions; an unbound local shows the outer variable; in 3.12 later bindings (also the template itself) are missing; {x-y} is accepted and fails in every call; static and class methods are not checked. Builtins, global declarations and exec are not modelled."
  },
  {
   "property": "C83",
   "status": "partial",
   "theorems": [
    "C83_requests_partial",
    "C83_histories_partial",
    "C83_copy_refuted",
    "C83_assign_refuted",
    "C83_modules_refuted",
    "C83_forgets_refuted",
    "C83_class_access_refuted",
    "C83_term_refuted"
   ],
   "note": "Proved for all programs without copies and assigned histories, of classes whose templates are from modules with one docstring, calls made by tools being forgotten. False: copy.copy(agent) keeps the bound templates, so the copy talks as the original, in its conversation; agent.__history__ = ... is not seen by templates already looked up; a template inherited from another module is sent with the system prompt of the template called first; an agent forgets what it was asked by tools; looking a template up on the class (ChatBot.send) adds self = None to the class template's context each time; an agent that is a dataclass with a term as a field raises AttributeError."
  },
  {
   "property": "C84",
   "status": "partial",
   "theorems": [
    "C84_sums_partial",
    "C84_keeps",
    "C84_again",
    "C84_one_variable_partial",
    "C84_corrected",
    "C84_fails_narrow_partial",
    "C84_dead_rule_refuted",
    "C84_canonical_refuted",
    "C84_three_refuted",
    "C84_pairs_refuted",
    "C84_zero_refuted",
    "C84_fails_refuted"
   ],
   "note": "Proved: evaluation ends and groups every sum, keeps value (unless another operation has two arguments), integers and variables, and is stable; equal sums of one variable have one normal form; with the third rule's pattern corrected to Term(mv, (), {}), results are equal exactly for equal sums. False: the third rule never fires, as Term(mv, (), ()) has a sequence pattern for the keyword arguments, which are a mapping, so (1 + x) + y and (1 + y) + x differ for any order of x and y; the rules take any term with two arguments for a sum, so 1 + x * y becomes (1 + x) + y; 0 + x is not x; fails(fn) never raises, since it catches its own RuntimeError."
  },
  {
   "property": "C85",
   "status": "partial",
   "theorems": [
    "C85_reduce_partial",
    "C85_unnamed_refuted",
    "C85_rnn",
    "C85_relu",
    "C85_softmax",
    "C85_unroll",
    "C85_pool",
    "C85_conv1d",
    "C85_conv2d",
    "C85_mean",
    "C85_mean2",
    "C85_standardize",
    "C85_standardize2",
    "C85_instancenorm",
    "C85_batchnorm",
    "C85_layernorm_partial",
    "C85_layernorm_refuted",
    "C85_fullconn_partial",
    "C85_fullconn_refuted",
    "C85_attention_partial",
    "C85_attention_same_partial",
    "C85_attention_axes_refuted",
    "C85_attention_scale_refuted",
    "C85_maxpool1d_partial",
    "C85_maxpool2d_partial",
    "C85_maxpool_refuted",
    "C85_maxpool_then_conv_refuted",
    "C85_broadcast",
    "C85_broadcasts"
   ],
   "note": "Proved for all axes, sizes and entries: reduction over names of which at least one is an axis, RNN, Relu, Softmax, Unroll, Pool, Conv1d, Conv2d, means, variances, Standardize, InstanceNorm, BatchNorm; for the others what they compute instead. False: FullConn applies the logistic function to every product and adds the bias outside; Attention divides by |key| and not its root, and contracts over seq after the weights were renamed to seq2, so the result has the axis seq2; torch.max returns a pair, so max-pooling leaves a positional dimension of size one, after which every convolution with a kernel longer than one raises; LayerNorm with weights on chans and layer, as documented, gives a result with four axes unless the new names are the old ones; reduce over names that are no axes reduces the positional dimensions. Real numbers, no rounding; the Scoped annotations are not modelled."
  },
  {
   "property": "C86",
   "status": "partial",
   "theorems": [
    "C86_calls_partial",
    "C86_attributes_partial",
    "C86_evaluate_partial",
    "C86_handled",
    "C86_once_refuted",
    "C86_inner_refuted",
    "C86_wishart_refuted",
    "C86_wishart_term_refuted",
    "C86_options_refuted",
    "C86_positional_refuted",
    "C86_matrices_refuted"
   ],
   "note": "Proved for all classes but Wishart, all spellings with no more positional arguments than the operation has, objects made without further options; NumPyro's signatures, attributes and conversions are trusted (table in NpdModel.v, conversions assumed to invert each other). n evaluations embed 2n levels. False: no Wishart of the library can be embedded (it has no df); Wishart(df, scale_tril) builds a Wishart whose scale matrix is the factor; options (is_sparse, validate_args, ...) are lost; LKJCholesky's third positional argument is refused; a MultivariateNormal term given by scale_tril has covariance_matrix None; one evaluation leaves a distribution within two others as an object; a handler is not asked about an object within another."
  },
  {
   "property": "C87",
   "status": "partial",
   "theorems": [
    "C87_evaluate_partial",
    "C87_same",
    "C87_pairs",
    "C87_free_partial",
    "C87_map_structure_partial",
    "C87_map_structure_same",
    "C87_agreement_partial",
    "C87_fields",
    "C87_range_refuted",
    "C87_sets_refuted",
    "C87_counter_refuted",
    "C87_chain_refuted",
    "C87_deque_refuted",
    "C87_dataclass_refuted",
    "C87_items_refuted",
    "C87_keys_refuted"
   ],
   "note": "Proved for lists, tuples, named tuples, UserList, bytearray, unbounded deque, dict, OrderedDict, defaultdict, mappingproxy, UserDict, views and dataclasses with all fields in __init__, nested to any depth, results and failures alike; sets for map_structure, for evaluate only with members that stay. False: a range (also array, memoryview) raises TypeError, so a free operation cannot take one; sets are not evaluated; a Counter counts its pairs; a ChainMap is put over a tuple; a deque loses its maxlen; a dataclass with a field(init=False) raises ValueError; items() with unhashable values raises; keys that become equal merge."
  },
  {
   "property": "C88",
   "status": "partial",
   "theorems": [
    "C88_fresh",
    "C88_function",
    "C88_free_partial",
    "C88_variable_partial",
    "C88_copies",
    "C88_copies_free_partial",
    "C88_builtin_partial",
    "C88_builtin_term_partial",
    "C88_builtin_later_partial",
    "C88_union_refuted",
    "C88_nameless_refuted",
    "C88_signature_refuted",
    "C88_range_refuted",
    "C88_sets_refuted"
   ],
   "note": "Proved for all programs and chains of copies; calls for arguments of the collections that C87 keeps. False: int | str has no __name__, so define raises AttributeError, even with a name; so do callables without __name__ unless a name is given; a built-in function without a known signature (max) cannot be applied to terms; the operation of sum fails on a range; the operation of len counts the terms of a set. Static methods, class methods and single dispatch: C63."
  },
  {
   "property": "C89",
   "status": "partial",
   "theorems": [
    "C89_reads_partial",
    "C89_refused",
    "C89_constraint_refuted",
    "C89_class_refuted",
    "C89_class_tuple_refuted",
    "C89_named_tuple_refuted",
    "C89_generic_refuted",
    "C89_empty_tuple_refuted",
    "C89_recursive_refuted"
   ],
   "note": "Proved for all types without constraints outside of classes, without registered types or fixed tuples in the fields of classes and named tuples or behind generic aliases, and without empty tuples. Pydantic's reading is trusted (unions from the left; further members are passed over). False: the metadata of Annotated are put as one tuple, so Pydantic does not see constraints (nor descriptions); fields of dataclasses, typed dictionaries, models and named tuples are not looked at, nor what Pair[int] stands for, so complex numbers and images in them cannot be read and tuples have another form; tuple[()] is read from anything; an alias that mentions itself ends in RecursionError. Callables: C71; tools: C69."
  },
  {
   "property": "C90",
   "status": "partial",
   "theorems": [
    "C90_methods_partial",
    "C90_keywords_partial",
    "C90_positions_partial",
    "C90_listed",
    "C90_reshape",
    "C90_transpose_partial",
    "C90_second",
    "C90_positional_refuted",
    "C90_sort_differs",
    "C90_sort_refuted",
    "C90_dtype_differs",
    "C90_dtype_refuted",
    "C90_transpose_differs",
    "C90_transpose_refuted",
    "C90_axes_differs",
    "C90_missing_differs",
    "C90_missing_refuted",
    "C90_update_differs",
    "C90_update_refuted"
   ],
   "note": "Proved for all 35 methods of the table and all calls with positional arguments in the common start of both signatures and keywords that the term's method has; reshape for all calls. JAX's signatures are trusted (table in JmModel.v). False: all, any, argmax, argmin, max, mean, min, prod, ptp, std, sum and var take the second positional argument for keepdims, where arrays take it for dtype or out, silently; sort and argsort take positional options that arrays refuse; dtype= is refused; transpose(1, 0) is refused and transpose(axes=...) accepted; flatten, item and others are missing; x.at[k].set(v) defines a new operation at each call, so the same update written twice gives different terms and cannot be handled."
  },
  {
   "property": "C91",
   "status": "partial",
   "theorems": [
    "C91_sums",
    "C91_result",
    "C91_gradient_partial",
    "C91_pointwise",
    "C91_accepts",
    "C91_programs",
    "C91_order_refuted",
    "C91_missing_refuted",
    "C91_aux",
    "C91_aux_refuted",
    "C91_twice_refuted",
    "C91_terms"
   ],
   "note": "Proved for every function whose results at a position depend on the arguments there, hence all programs of indexing and lawful library functions, any derivative, arguments in which vjp succeeds and cotangents with the names of the results in the same order. False: cotangents with the names in another order of equal sizes silently give the gradient of the transposed cotangent; cotangents without the names are refused; has_aux=True always raises ValueError; an argument with a name used twice raises."
  },
  {
   "property": "C92",
   "status": "partial",
   "theorems": [
    "C92_read",
    "C92_quoted",
    "C92_unknown",
    "C92_local_refuted",
    "C92_scope",
    "C92_scope_refused",
    "C92_scope_refuted",
    "C92_accepts",
    "C92_errors",
    "C92_inferred",
    "C92_within",
    "C92_again",
    "C92_terms",
    "C92_check",
    "C92_return_refuted",
    "C92_nested_refuted",
    "C92_list_refuted",
    "C92_recursive",
    "C92_recursive_refuted",
    "C92_recursive_never"
   ],
   "note": "Proved of all signatures: reading, quoting among globals, what is accepted and inferred, idempotence, agreement with the binders of terms. False: quoted local names are NameErrors; Scoped[A | int] is accepted; two scopes on the result are accepted and the second dropped; scopes inside types are ignored and lists of variables escape the check of the result; IsRecursive on a parameter is never refused."
  },
  {
   "property": "C93",
   "status": "partial",
   "theorems": [
    "C93_in_order",
    "C93_collections",
    "C93_first_elements",
    "C93_next_twice_refuted",
    "C93_used_twice_refuted",
    "C93_skipped_refuted",
    "C93_empty_unused_refuted",
    "C93_loop_differs",
    "C93_loop_refuted",
    "C93_stream_binds",
    "C93_stream_bound_exactly",
    "C93_stream_free_variables",
    "C93_stream_values_refuted",
    "C93_stream_outer_refuted",
    "C93_stream_stays",
    "C93_stream_elements_refuted"
   ],
   "note": "Proved when no iterator of a collection is advanced twice and elements of one-shot iterators are used once each in order. False otherwise: two nexts on a list give its first element twice, a value used twice is taken twice, an element not used is not taken and its StopIteration is lost, loops over a free iterable never end. For-expressions bind exactly the operations held by their arguments, which is the keys unless operations stand among the values; the stream of a variable is in its own scope; evaluation never gives the elements."
  },
  {
   "property": "C94",
   "status": "partial",
   "theorems": [
    "C94_shape",
    "C94_size",
    "C94_ndim",
    "C94_size_at",
    "C94_rows",
    "C94_scalars",
    "C94_scalar_refuted",
    "C94_requires_grad_refuted",
    "C94_traced_differs",
    "C94_traced_refuted",
    "C94_traced_slice_refuted",
    "C94_item_refuted"
   ],
   "note": "Proved of the values of all programs: shape, number of elements, axes, sizes of axes, len and rows. False: without axes len and iteration raise IndexError instead of TypeError; requires_grad_ returns the array without its names; while a function is traced, shape counts integers in an index as axes and slices by their full length. item raises ValueError even with one element at each position."
  },
  {
   "property": "C95",
   "status": "partial",
   "theorems": [
    "C95_sound",
    "C95_fails",
    "C95_order",
    "C95_items",
    "C95_named_never",
    "C95_named_refuted",
    "C95_proxy_refuted",
    "C95_fixed_refuted",
    "C95_typed_refuted",
    "C95_items_refuted",
    "C95_mixed"
   ],
   "note": "Proved of all nested values but named tuples of two or more items and mappings other than dictionaries with one item. False: such named tuples get the type of one-item tuples, such mappings that of dictionaries; typing.NamedTuples and mappings of classes with fixed parameters are refused; a list of dictionaries of several types loses the type of its items."
  },
  {
   "property": "C96",
   "status": "partial",
   "theorems": [
    "C96_encodes",
    "C96_decodes",
    "C96_roundtrip",
    "C96_reads",
    "C96_refuses",
    "C96_plain_refuted",
    "C96_junk",
    "C96_junk_refuted",
    "C96_rest_refuted",
    "C96_whole"
   ],
   "note": "Proved: Base64 both ways, the round trip of images as bytes, all Base64 data URLs of images. Saving and opening PNGs are given. False: a data URL that is not Base64 is read as if it were; characters that are not Base64 are skipped and what follows padding is lost, without an error."
  },
  {
   "property": "C97",
   "status": "partial",
   "theorems": [
    "C97_source",
    "C97_again",
    "C97_fair",
    "C97_lines",
    "C97_nestable",
    "C97_accepted",
    "C97_restricted",
    "C97_star_refuted",
    "C97_cleared_refuted",
    "C97_foreign_refuted",
    "C97_decides"
   ],
   "note": "Proved: the source comes back through any later decodings, reads and checks of the line cache; imports exactly, and with RestrictedPython all accepted code can be nested. False: a star import in a block is accepted; the source is lost if the line cache is cleared; code objects not decoded encode to no source."
  },
  {
   "property": "C98",
   "status": "partial",
   "theorems": [
    "C98_exact",
    "C98_best",
    "C98_errors",
    "C98_least",
    "C98_inherited",
    "C98_order",
    "C98_cache",
    "C98_callable_iterable_refuted",
    "C98_order_refuted",
    "C98_inconsistent_refuted",
    "C98_mixed_refuted",
    "C98_union_refuted",
    "C98_first",
    "C98_unrelated"
   ],
   "note": "The choice is proved to be a most specific registered superclass, the failures are described, and the cache is proved invisible. Refuted: a type with __call__ and __iter__ raises RuntimeError in defdata; of equally good classes the first registered may win silently; an abstract class with its bases the other way round makes a single choice fail; with bases that mix abstract and other classes the order is not that of __mro__; a rule for a union with an abstract class may come too late."
  },
  {
   "property": "C99",
   "status": "partial",
   "theorems": [
    "C99_told",
    "C99_ends",
    "C99_quiet",
    "C99_tool_caught",
    "C99_tool_uncaught",
    "C99_tool_returns",
    "C99_untraced",
    "C99_traceback_refuted",
    "C99_leaks",
    "C99_leak_refuted",
    "C99_base_refuted",
    "C99_unencodable_refuted"
   ],
   "note": "Proved of all attempts and settings: what each request carries, how retrying ends, what tools' errors become. False: tracebacks of decoding errors are never included, as the callback runs outside of the except block (it prints NoneType: None, or the traceback of an unrelated exception the caller is handling); classes outside Exception and failures to encode a result are not caught though asked for."
  },
  {
   "property": "C100",
   "status": "partial",
   "theorems": [
    "C100_keys",
    "C100_answers",
    "C100_once",
    "C100_runs",
    "C100_unhashable",
    "C100_names",
    "C100_numbers_refuted",
    "C100_spelling_refuted",
    "C100_order_refuted",
    "C100_handler_refuted",
    "C100_nested_refuted",
    "C100_lists_refuted",
    "C100_hashes"
   ],
   "note": "Proved of all sessions: keys are equal exactly for the same call, answers come from runs of the same call, exceptions are not kept, and, if no call is made again while it runs, one answer for ever. False: arguments equal but of different type share an answer; spelling and order of arguments divide it; a term made without a provider is kept under every provider; a call that repeats itself inside gets two answers; lists are refused."
  },
  {
   "property": "C101",
   "status": "partial",
   "theorems": [
    "C101_exact",
    "C101_order",
    "C101_rounds",
    "C101_stable_partial",
    "C101_shadow_refuted",
    "C101_renamed_refuted",
    "C101_alias_refuted",
    "C101_order_refuted",
    "C101_rounds_alone"
   ],
   "note": "Proved of all stacks, environments and snippets: what is offered and when collecting raises. Tools stay on offer if each has one name and snippets bind neither tools nor names of tools or agents. False otherwise: a second name given to a tool by a snippet takes its first away, or with LexicalReaders ends the call with an AssertionError; a user's tool called exec_code is not offered with PythonRepl; whether collecting raises may depend on the order of the handlers."
  },
  {
   "property": "C102",
   "status": "partial",
   "theorems": [
    "C102_says",
    "C102_is_said",
    "C102_assignments",
    "C102_only_reads",
    "C102_error_last",
    "C102_offered",
    "C102_offered_own",
    "C102_no_request",
    "C102_undecodable",
    "C102_stops",
    "C102_all_rounds",
    "C102_current_refuted",
    "C102_readable_refuted",
    "C102_stays_readable_refuted",
    "C102_skipped_refuted",
    "C102_acts",
    "C102_skips"
   ],
   "note": "Proved of all rounds, assignments and changes of lists in place: what is said, that reading changes nothing, which variables are offered at least, and when no request is made. False: the description's 'current value' after an assignment in the same round; a list of mixed types is offered and breaks the call when read, as does one changed after it was offered; a list that contains itself is not skipped but makes every request fail."
  }
 ]
}