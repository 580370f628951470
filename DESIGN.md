# Design

Subject: `BasisResearch/effectful` (sources in `/repo`, read as text, never run). Everything below is
about a hand-written Gallina model of that code. The tie between model and code is the comment on each
model definition, citing the file and lines it follows and where it is simpler.

## Layout

Flat files in `rocq/theories`, logical prefix `Verif`, Coq standard library only.

* `XModel.v`: definitions following the code, nothing else.
* `XSpec.v`: the vocabulary properties are stated in, independent of the model's algorithms.
* `XProofs.v` and others: lemmas.
* `XProps.v`: the property theorems, each closed by a lemma or a witness, with `Print Assumptions` beneath
  and examples meeting the hypotheses.

Suffix `_partial`: holds under stated conditions, the rest of the property is named in the comment.
Suffix `_refuted`: the model, and so the code as read, breaks the property; the witness is in the proof.

## Trusted base

* The Coq kernel 8.16.1 (and `coqchk`).
* `Print Assumptions` of every property theorem: "Closed under the global context" (no axioms), except C85, which uses the axioms of Coq.Reals:
  ClassicalDedekindReals.sig_not_dec, ClassicalDedekindReals.sig_forall_dec,
  FunctionalExtensionality.functional_extensionality_dep, Classical_Prop.classic.
* The reading of the code in the model files, and of Python as used by it: dictionary order, `with`,
  exceptions, `functools.wraps`, `inspect.signature`, method resolution, `ChainMap`, string methods.
* What is given to a model as a parameter, named under each area.

Not modelled at all: dice wrappers of distributions, `indexed` gather/scatter over real tensors,
torch autograd wrappers, random operations, the network, pydantic, mypy and RestrictedPython themselves.

## Effect runtime

Files: EffModel, EffSpec, EffProofs, EffRefine, EffEquiv, EffLemmas, EffProps.

User code is a tree `comp`: return, raise, any action on an abstract outside world, an operation
call, a `handler`/`interpreter` block; the continuation receives the outcome, so try/except/finally
are expressible. `coproduct`, `fwd`, `_save_args`, `_restore_args`, `_set_prompt`,
`Operation.__call__`, `__default_rule__`, `__apply__`, `interpreter` and `handler` are transcribed one
by one as closures over this language; the current interpretation is mutable state, saved and restored
where the code does. Execution is a fuelled function with an explicit out-of-fuel result.
EffSpec is the reference semantics: per operation a list of installed functions, no closures, no state.

* **C01** Installing an interpretation is undone on every exit (proved). Induction on fuel over every kind of task (program, closure, call, default rule). Single thread, LIFO blocks (other orders: C13).
  Theorems: `C01_interpretation_restored`, `C01_after_block`.
* **C02** Coproduct handles the union, right side wins (proved). Keys by computation on dictionaries; what runs by unfolding a call under the coproduct. 
  Theorems: `C02_coproduct_keys`, `C02_right_wins`, `C02_left_kept`.
* **C03** Coproduct is associative (proved). `law` relates interpretations, `ceq` closes it under every program context, handler and default rule; both sides denote the same lists in the reference semantics (C10), so they agree on termination, outcome and effects. Equivalence in every program context, including inside handlers and default rules.
  Theorems: `C03_C04_C05_laws_in_context`, `C03_coproduct_assoc`.
* **C04** The empty interpretation is a unit for coproduct (proved). As C03. The left unit law needs handler(); under interpreter() coproduct({}, a) differs from a because it saves arguments (see C07).
  Theorems: `C03_C04_C05_laws_in_context`, `C04_coproduct_units`.
* **C05** Nesting handlers equals installing their coproduct (proved). As C03. 
  Theorems: `C03_C04_C05_laws_in_context`, `C05_nested_handlers`.
* **C06** fwd() reaches the next enclosing handler, then the default, in order (proved). Induction on the number of nested handlers, against the function `expected` giving the intended order of entries and exits. 
  Theorems: `C06_forwarding_order`.
* **C07** fwd() without arguments forwards the current arguments (partial). Proved for handlers with parameters; the refutations are a parameterless handler (its arguments are not saved) and a handler installed by `interpreter`. Holds for handlers with parameters installed by handler(); false for parameterless handlers and handlers installed by interpreter()/evaluate(intp=...).
  Theorems: `C07_fwd_current_args_partial`, `C07_fwd_current_args_default_partial`, `C07_parameterless_handler_refuted`, `C07_interpreter_refuted`.
* **C08** Default and free rules of unhandled operations (proved). Unfolding lemmas for an unhandled call, `NotHandled` giving the free term; `fwd` outside a handler raises. Default bodies are arbitrary code not using the library in the statement; the free rule's renaming of binders is in the term model.
  Theorems: `C08_default_and_free_rule`, `C08_fwd_outside_handler`.
* **C09** An __apply__ handler sees every otherwise unhandled call exactly once, as (op, *args) (partial). Proved for operations whose class is `Operation` or a direct subclass; refuted two levels below. False for Operation.__apply__ and an operation class two or more levels below Operation.
  Theorems: `C09_apply_sees_op_partial`, `C09_apply_two_levels_refuted`, `C09_apply_called_twice_refuted`.
* **C10** The handler stack implements the documented dynamic handler semantics (proved). Simulation in both directions by induction on fuel (EffRefine); determinism of the reference semantics. 
  Theorems: `C10_refines_reference`, `C10_deterministic`.

## Threads and block order

Files: ThreadModel, ThreadProofs, ThreadProps.

A small-step machine: each thread's interpretation, the cached `get_runtime`, steps of several threads
interleaved by an arbitrary schedule at the points where Python may switch; blocks of one thread that are
left in any order (generators).

* **C11** Handlers installed in one thread never affect another (proved). Invariant over all schedules: every value a thread reads is reachable by its own blocks. Any start and schedule: only own handlers are ever visible; once the library has been used, each thread reads exactly what it would read alone.
  Theorems: `C11_never_sees_other_threads`, `C12_as_if_alone_partial`.
* **C12** A handler installed by a thread is in force for that thread from the moment it is installed (partial). After first use each thread reads what it would read alone (invariant); a schedule of two first uses makes two Runtime objects and loses a handler. True once get_runtime() has completed once in the process; false at concurrent first use (two Runtime objects).
  Theorems: `C12_as_if_alone_partial`, `C12_first_use_refuted`.
* **C13** Leaving blocks in any order restores the outer interpretation (partial). Induction on properly nested blocks; two blocks left in the wrong order leave the wrong interpretation. True for last-in-first-out exits; false otherwise.
  Theorems: `C13_nested_restores_partial`, `C13_any_order_refuted`.

## Terms and binding

Files: TermModel, TermSpec, TermProofs, TermScopes, TermData, TermEval, TermSubst, TermUser, TermFvs, TermBeta, TermTrace, TermRun, TermExamples, TermProps.

Operations carry a base (user's operation) and a copy number (fresh variables of `defop`), signatures
their parameters with scope ordinals; `bind`, scope inference, `__fvs_rule__`, `defdata`, `evaluate`,
`fvsof`, `deffn`, `trace` are transcribed. TermSpec is independent: scoping by parameter, terms up to bound
names (de Bruijn pairs), free variables, capture-avoiding substitution on these. Containers: list, tuple,
dict, set (not traversed by `evaluate`, as in the code). Type rules and `typeof` are not modelled here.

* **C14** Variables bound by an operation are not free in the resulting term (partial). Induction on terms, via `fvs_rule` = scopes of the specification (TermScopes). Holds when operations occur only in containers that evaluate traverses; false when the binders are given in a set.
  Theorems: `C14_construct_free_variables_partial`, `C14_set_of_binders_refuted`.
* **C15** Constructing a binding term renames binders to fresh variables and nothing else (partial). `defdata` renames consistently to copies above the counter; the result is equal up to bound names; `reachable` terms (calls and evaluation) keep free and bound variables apart. As C14.
  Theorems: `C15_construct_alpha_fresh_partial`, `C15_reachable_hygiene`, `C15_set_of_binders_refuted`.
* **C16** Substitution by handlers is capture-avoiding (partial). Evaluation under handlers for variables equals substitution on nameless terms; side condition no-shadowing, discharged for reachable terms, refuted otherwise. Holds for terms built by calling operations and evaluating, with handlers for the program's own variables; false for a variable that is also bound further inside (reachable by taking a function body apart or applying a function to itself).
  Theorems: `C16_capture_avoiding_partial`, `C16_capture_avoiding_general_partial`, `C16_shadowed_refuted`, `C16_handler_arity`.
* **C17** fvsof computes the free variables (partial). `fvsof` against `fv`; exact for reachable terms, bounds in general. Exact for terms built by calling operations and evaluating; on other terms it can miss a variable that is both free and bound.
  Theorems: `C17_fvsof_reachable_partial`, `C17_fvsof_bounds_partial`, `C17_fvsof_opened_refuted`.
* **C18** Calling a deffn term is beta reduction (partial). Beta from C16 on freshly built functions; error branches of argument binding stated separately. Beta holds for freshly built functions and, in general, when the variables are not bound again in the body; false after self-application, for wrong numbers of positional arguments, and for operations used as values.
  Theorems: `C18_beta_partial`, `C18_beta_general_partial`, `C18_unknown_keyword_rejected`, `C18_self_application_refuted`, `C18_arity_refuted`, `C18_variable_as_value_refuted`, `C18_operation_body_refuted`.
* **C19** Evaluating with no handlers is the identity up to renaming (proved). Induction on terms. 
  Theorems: `C19_evaluate_identity`.
* **C20** evaluate is a homomorphism applied bottom-up, left to right (proved). Big-step relation `runs` giving the sequence of operation calls, and its agreement with `evaluate`. 
  Theorems: `C20_evaluation_order`, `C20_homomorphism`.
* **C21** Scope inference keeps declared binding and adds a common root (proved). The inferred signature against the documented rule: declared scopes kept, a root added, bad results rejected. 
  Theorems: `C21_inferred_scopes`, `C21_binding_relation`, `C21_root`, `C21_binder_in_result_rejected`.
* **C45** trace agrees with the function it traces (partial). `trace` builds the deffn term of a function given by any body built from operations; composition of substitutions. Holds when positional parameters are passed by position and keyword-only ones by keyword, all given; false for keywords naming positional parameters, omitted defaults, positional-only parameters and a keyword-only parameter called body.
  Theorems: `C45_trace_agrees_partial`, `C45_calling_conventions_refuted`, `C45_untraceable_refuted`.

## Comparison, interpretations as objects, printing

Files: CmpModel/Spec/Proofs/Props, ObjModel/Spec/Proofs/Props, StrModel/Spec/Proofs/Props.

`syntactic_eq` branch by branch with the calls of `_NumberTerm.__eq__` it makes; class statements of
`ObjectInterpretation` with any method resolution order; `Term.__str__` with its numbering of names.
Left out: NaN, values registered by backends, terms as dictionary keys when printed.

* **C22** syntactic_eq is an equivalence relation (partial). Induction on values; `documented` is the relation of the docstring, `same` the exact one computed. Reflexive and transitive; symmetric except when a list spells a text on the right; under handlers for number equality the result on number terms against other values is arbitrary.
  Theorems: `C22_reflexive`, `C22_transitive`, `C22_symmetric_partial`, `C22_documented_partial`, `C22_exact`, `C22_documented_is_equivalence`, `C22_symmetric_refuted`, `C22_number_terms_refuted`.
* **C23** syntactic_eq never runs operations (partial). The list of operation calls made is part of the result and shown empty. False when a non-term on the left is compared with a number term on the right.
  Theorems: `C23_no_operations_partial`, `C23_no_number_terms_partial`, `C23_no_operations_refuted`.
* **C24** ObjectInterpretation follows method resolution order (partial). Induction over the sequence of class statements; exact lookup, then equality with Python's own resolution for the shapes of hierarchies named. Holds for single inheritance and for multiple inheritance without an overridden common ancestor; false for diamonds; a failed class statement leaks its marks to the next class.
  Theorems: `C24_lookup_exact`, `C24_single_inheritance_partial`, `C24_no_diamond_partial`, `C24_diamond_refuted`, `C24_failed_class_leaks_refuted`.
* **C25** Printed operation names are unique within a term (partial). Invariant of the numbering: a printed name determines the operation; decimal notation is injective. Holds when no operation's name is another's followed by ! and a number; false otherwise, and for operations inside containers printed by repr (sets, dataclasses).
  Theorems: `C25_printed_names_partial`, `C25_suffixed_name_refuted`, `C25_in_container_refuted`.

## Types

Files: UnifModel, UnifSpec, UnifSubst, UnifProofs, UnifCanon, UnifSound, UnifExamples, UnifProps.

`unify` with all its cases for variables, sequences, unions, generics, tuples, operations and callables;
`canonicalize`; `substitute`; `freetypevars`; `_freshen`. Classes are given by a table (bases, parameters,
subclass relation) assumed coherent (`regular`, `tidy_bases`, `founded`; the table `zoo` meets them).
Not modelled: typed dictionaries, `inspect.Signature`, constrained variables, literals, annotations,
aliases, forward references; recursion of `canonicalize` re-enters only subscripted bases.

* **C26** Unification is sound (partial). Induction on fuel; `accepts` is a declarative subtyping relation. The refutations are runs of the model. Bindings are kept: always. Soundness: for concrete (variable-free) subtypes and canonical forms; with variables on both sides a cyclic substitution or an ignored conflict is returned; user classes are identified with their topmost ancestor; parameters of functions are unified covariantly.
  Theorems: `C26_kept`, `C26_sound_partial`, `C26_cycle_refuted`, `C26_conflict_refuted`, `C26_subclass_refuted`, `C26_function_refuted`.
* **C27** substitute removes exactly the substituted variables (proved). `resolves` is the part-by-part meaning of a substitution; termination from acyclicity, divergence on cycles. All types of the fragment; unions are rebuilt flat and without repetitions, so the part-by-part statement is for union-free types.
  Theorems: `C27_variables`, `C27_parts`, `C27_ends`, `C27_cycles`.
* **C53** Unification finds a substitution when there is one (partial). For a pattern and its instance: unification succeeds and resolves the pattern to the instance; for unions without variables, against `accepts`-members. Proved for instances of patterns whose unions have no variables, and for variable-free unions against what a member takes; with subclasses the order of arguments decides, a variable in a union beside a class that fits fails, a bare generic class shows the TypeVar of its class statement.
  Theorems: `C53_instance_partial`, `C53_union`, `C53_order_refuted`, `C53_union_refuted`, `C53_capture_refuted`.
* **C54** canonicalize returns a canonical type (partial). Termination by rank of classes; idempotence on canonical forms. Idempotent when ... is used only for parameters and variadic tuples; a bare generic subclass has free variables in its canonical form.
  Theorems: `C54_ends`, `C54_idempotent_partial`, `C54_leak_refuted`.
* **C55** Freshening renames the variables and nothing else (proved). Freshening as a renaming by an injective map onto new variables. For types as python builds them (unions flat and without repetitions).
  Theorems: `C55_ends`, `C55_variables`, `C55_parts`.

## Products

Files: ProdModel/Spec/Proofs/Cases/Props, NeedModel/Spec/Proofs/Props.

`productN` with its copies of operations, prompts, translations, the three ways a component answers and
`argsof`; handlers are any programs calling operations and default rules. Left out: `fwd` in component
handlers, keyword arguments, side effects of handlers (a suspended result is recomputed; `CallByNeed`
itself is NeedModel), structures other than tuples in `map_structure`.

* **C28** Product of interpretations projects to each component (partial). Simulation between the product run and each component alone, by induction on fuel, under conditions each refuted when dropped. Proved for handlers calling only what their own component handles or what nobody does, arguments with a value in every component, and operations handled by some component; each condition is shown needed by a refutation.
  Theorems: `C28_projection_partial`, `C28_prompts_partial`, `C28_apply_partial`, `C28_other_handles_refuted`, `C28_apply_diverges_refuted`, `C28_copy_visible_refuted`, `C28_exception_leaks_refuted`, `C28_enclosing_refuted`, `C28_uncovered_refuted`.
* **C29** Lazy components run at most once (partial). Invariant on the log of runs and answers. Proved when the function does not call its own cell; with re-entrancy it may succeed twice with different values.
  Theorems: `C29_once_partial`, `C29_reentrant_refuted`.
* **C47** argsof gives the current call's arguments (partial). Computation in any context; refuted for analyses answering through `apply`. Proved without apply handlers; for an analysis that answers through apply the first argument is dropped (args[2:]).
  Theorems: `C47_argsof_partial`, `C47_argsof_apply_refuted`.

## Index sets and arrays

Files: IdxModel/Spec/Proofs/Props, ArrModel/Spec, ArrProofs, ArrNames, ArrBind, ArrSizes, ArrUnbind, ArrProps.

Index sets as ordered dictionaries of sets, any iteration order; arrays as shapes with elements, row-major
reshape, permutation, indexing, broadcasting. Index elements: None, ellipsis, integers, slices with positive
step, names; lists and arrays as elements are not modelled. jax clamps integers out of range where the model
(and torch) raises IndexError. Random operations are not modelled.

* **C30** IndexSet union laws (partial). Membership in the union computed for any iteration order; laws follow extensionally. All laws hold for one or more operands; union() of no operands is a TypeError and a name called self is refused.
  Theorems: `C30_constructor`, `C30_union_members`, `C30_union_laws`, `C30_union_nary`, `C30_union_one`, `C30_union_none_refuted`, `C30_name_self_refuted`.
* **C31** Indexing desugaring preserves meaning (proved). `index_full` is NumPy's rule on the original key; loop invariant of the desugaring, reshape keeps row-major positions. All shapes and keys of None, ellipsis, integers, slices (positive step) and names; lists and arrays as index elements are not modelled.
  Theorems: `C31_desugar_meaning`, `C31_desugar_rejects`.
* **C32** bind_dims inverts unbind_dims and permutes axes correctly (partial). `den` gives a named array's value for each value of the names; binding and unbinding against `stacked`. Proved for non-empty named axes; torch additionally needs each bound name to index one axis, and fails otherwise.
  Theorems: `C32_bind_torch_partial`, `C32_bind_jax_partial`, `C32_unbind`, `C32_bind_unbind_torch`, `C32_bind_unbind_jax`, `C32_repeated_name_refuted`, `C32_twice`, `C32_missing`.
* **C33** sizesof detects conflicting dimensions (partial). `uses` says which axis a name indexes; `sizesof` computes exactly it, or raises exactly on a conflict. torch: for all expressions. jax: without None and ellipsis in keys of outer indexing; with them a wrong size or an IndexError.
  Theorems: `C33_sizesof_torch`, `C33_sizesof_jax_partial`, `C33_jax_none_refuted`.
* **C34** cond_n selects the value of the case (partial). Exact result of the loop, then selection for single-name sets that partition the cases. Exact result given; the selection claim holds for single-name sets of which exactly one contains the case.
  Theorems: `C34_cond_n_selects_partial`, `C34_cond_n_exact`, `C34_not_covered_refuted`, `C34_second_name_refuted`, `C34_overlap_refuted`, `C34_errors`.
* **C46** Partial evaluation of named arrays preserves their value (partial). Row-major `unravel` of the names' positions inverts `ravel`; for PyTorch through C64 with index tensors without axes. For an array indexed by names. In PyTorch the values inside are torch_getitem's, which are right with slices of whole axes only: x[a(), 1:3] has an axis too many.
  Theorems: `C46_partial_eval`, `C46_getitem`, `C46_partial_eval_ok`, `C46_torch_partial`, `C46_torch_slice_refuted`.

## Language-model templates

Files: JsonModel, TupModel, ConvModel, ToolsModel, UserModel (each with Spec, Proofs, Props).

Content blocks, tuple and complex codecs, conversation loop with retries and nested calls, tool
collection, prompt formatting. The language model is any list of responses; tools are any programs that may
call templates. Given, not modelled: json scalars, pydantic on scalars and on the returned list, decoding
outcomes (part of the response), `string.Formatter.parse`, `dedent`, lookup and encoding of fields, `getattr`
on agents. Message texts are numbers; `uuid1` never repeats; waiting and the user's `before_sleep` hook left out.

* **C35** Content blocks linearise to the JSON encoding (partial). Induction on JSON with the text buffer as invariant; `dumps` is an independent printer. Proved without text-typed objects inside; an object of type 'text' loses its JSON; an object whose 'type' is a list or object raises TypeError.
  Theorems: `C35_linearize_partial`, `C35_extraction`, `C35_fails`, `C35_unhashable_refuted`, `C35_text_refuted`.
* **C36** Tuple encoding round trips (partial). Induction on types; `has` typing and `valid` schema are separate relations. Round trip for all types built from scalars, complex, tuples, named tuples, lists; surplus fields and items are accepted and dropped, anything decodes as the empty tuple.
  Theorems: `C36_round_trip`, `C36_tuple_accepts`, `C36_named_accepts`, `C36_decoded_type`, `C36_schema_accepted`, `C36_malformed_refuted`.
* **C37** Message history is transactional per top-level template call (partial). Induction on fuel for all jobs; `conversation` is an inductive shape of what is added. Failure and nested calls: no conditions. Success: when ids given by the model are new; a repeated id overwrites the stored message.
  Theorems: `C37_success_partial`, `C37_failure`, `C37_nested`, `C37_id_clash_refuted`.
* **C38** Every tool call of a completed conversation is answered (partial). `answered` on stored histories is kept. Proved when ids given by the model are new; with a repeated id an answer is left without its call.
  Theorems: `C38_answered_partial`, `C38_id_clash_refuted`.
* **C39** Retries do not leak malformed messages (proved). `requests_of` gives the sequence of requests of the retry loop. For stop_after_attempt; ids given by the model must be new.
  Theorems: `C39_retry`.
* **C40** Tool collection has no duplicates and no losses (partial). `visible` says which tools an environment shows under which names. Exact when no name shows two tools; a variable named like an agent's tool (a__b) loses one of the two; a raising property on an agent makes collection raise.
  Theorems: `C40_exact_partial`, `C40_distinct`, `C40_raises`, `C40_clash_refuted`, `C40_property_refuted`.
* **C44** User prompt formatting keeps text order (partial). `pieces_of` and `merged` are relations on pieces; also totality. Order, merging and blocks for all templates; a conversion or format spec acts on each text part of a field apart. string.Formatter.parse and dedent are not modelled.
  Theorems: `C44_merged`, `C44_pieces_unique`, `C44_plain`, `C44_conversion_refuted`.
* **C48** Requests never leave tool calls unanswered (partial). `answered` for every request sent. Proved without retries, or when undecodable calls come alone; otherwise the retry answers only the undecodable call.
  Theorems: `C48_requests_partial`, `C48_retry_refuted`.
* **C49** A template is not its own tool unless marked recursive (partial). Filtering by identity. Template.tools: always. When called: unless an agent in scope has it; a template method of an agent is offered to itself as self__name.
  Theorems: `C49_tools`, `C49_call_partial`, `C49_method_refuted`.
* **C50** LexicalReaders offers every other readable variable (partial). Exact list of offers and exact condition of raising. Proved when each tool has one name; a tool bound to two variables raises AssertionError.
  Theorems: `C50_readers_partial`, `C50_readers_exact`, `C50_two_names_refuted`.

## Evaluating generated code

Files: ReplModel, RegionModel (each with Spec, Proofs, Props).

Providers and sessions over a heap of namespaces; code is any deterministic program of binds, deletes,
reads, definitions, calls, prints, raise and exit. Syntax trees by the lines their nodes take. Given:
RestrictedPython's static checks, `json.loads`, that parse after unparse keeps the tree, mypy's output.

* **C41** Type-check errors are attributed to the checked region only (proved). `printed`, `selects`, `region_error` as relations on diagnostics. json.loads is given; for output lines that are diagnostics with severity and integer line.
  Theorems: `C41_exact`, `C41_total`, `C41_verdict`.
* **C42** REPL state persists and output is per call (partial). `performs` is a big-step relation for code; sessions compose it (`dialogue`). Proved under the unsafe provider. Under the restricted one bindings of a raising snippet are lost and earlier functions do not see later bindings; output and the template's environment are proved for both.
  Theorems: `C42_session_partial`, `C42_output`, `C42_environment_kept`, `C42_late_binding`, `C42_raise_refuted`, `C42_late_binding_refuted`.
* **C43** Restricted exec copies back bindings faithfully (partial). As C42 with the copied namespace. New and changed bindings come back and others stay; deletions do not come back, a raise loses the bindings, names of the guards are shadowed.
  Theorems: `C43_exact_partial`, `C43_failed`, `C43_deletion_refuted`, `C43_raise_refuted`, `C43_shadowed_refuted`.
* **C51** prior_snippets are the snippets that ran without error (partial). Induction on the calls. Every snippet's source is recorded, also of those that raise.
  Theorems: `C51_recorded_partial`, `C51_failed_refuted`.
* **C52** The checked region is exactly the spliced code (partial). Line numbers computed from heights; every line of the unparsed text belongs to a node or is blank. The region is the spliced code except the decorator lines of its first statement; the definition spliced into is one starting at the template's line.
  Theorems: `C52_source_partial`, `C52_repl_partial`, `C52_defined`, `C52_template`, `C52_decorator_refuted`.
* **C56** Restricted code always runs behind the guards (proved). As C43; the namespace the code starts in is looked up guard by guard; sessions by induction on the calls. Any environment, any earlier snippets, any ending. RestrictedPython's static checks are not modelled.
  Theorems: `C56_guards`, `C56_session`.

## Inference

Files: TypModel, TypSpec, TypProofs, TypExamples, TypProps.

`typeof`, `_simple_type`, `Operation.__type_rule__`, `_unify_signature` and `nested_type` on plain values,
tuples and other collections, on top of the unification model. An expression's values are given by a
relation: `universe` lists what is assumed of the values of types (met by the values over the table
`farm`), `respects` says that handlers return what signatures promise, `tame` which types are in play.
Not modelled: functions, mappings and operations as arguments, keyword arguments, literals.

* **C57** A term evaluates to an instance of its typeof (partial). Induction on expressions; each call by soundness of unification (C26) and by induction on the parameters; the refutations are expressions in the universe over `farm` or over `town`, where texts are sequences. Proved for signatures and arguments whose types say all about their values (no bare generic classes, Any or function types, no unions in the result). Refuted for collections of mixed types, for texts as sequences, and for the arithmetic of number terms.
  Theorems: `C57_typeof_sound_partial`, `C57_inferred_sound_partial`, `C57_mixed_refuted`, `C57_text_refuted`, `C57_number_refuted`, `C57_items`.

## Number terms

Files: NumModel, NumSpec, NumProofs, NumExamples, NumProps.

The operations and reflected methods of `_NumberTerm` and its subclasses, python's dispatch of binary
operators and of comparisons over them, `==`, `bool()` in conditionals, and `evaluate` of the terms built.
The numbers (values, primitive operators, methods, truth) are parameters. Not modelled: handlers of the
arithmetic operations themselves, `divmod`, `@`, three-argument `pow`, `round` with digits, `.real` and the like.

* **C58** Operators on number terms mean operators on numbers (partial). Induction on expressions, with the class of each term a number class as invariant; stages by mutual induction on terms and operands; the refutations are over integers, booleans and floats in halves. Proved without ==, operator.index and untyped variables, with comparisons of numbers that answer each other's; refuted for these: an int compared with a float evaluates to NotImplemented, == is syntactic, operator.index raises, a sum with an untyped term on the right has no operators.
  Theorems: `C58_operators_partial`, `C58_binary_exact`, `C58_raises`, `C58_stages`, `C58_compare_refuted`, `C58_equal_refuted`, `C58_index_refuted`, `C58_untyped_refuted`, `C58_equal`, `C58_equal_values`, `C58_compared`.

## Distributions

Files: DistModel, DistSpec, DistProofs, DistBatch, DistLaws, DistBridge, DistExpand, DistExamples, DistProps.

NumPyro distribution terms with named parameters: `_indices`, `_broadcast_to_named`, `_bind_dims_distribution`,
`batch_shape`, `event_shape`, `log_prob`, `mean`, `entropy`, `enumerate_support`, `expand`. NumPyro itself is given by
its broadcasting rule over a family (event ranks of the parameters, density, mean, entropy of single parameters).
Arrays with names are functions of the positions of the names; `C59_bind_arrays` and `C59_index_arrays` connect
them with the indexed arrays of ArrModel. Python's set order is a parameter (any permutation).
Not modelled: sampling, distributions as parameters, unevaluated parameters, handlers of the constructors.

* **C59** A distribution with named parameters is a family of distributions (partial). The parameters at a position of the bound axes are those at the position of the names, for each broadcasting step; then the laws by the library's rule at positions. Proved for log_prob, mean, batch_shape and event_shape when all array parameters have equally many batch axes and the value at least the axes of batch and event; otherwise results are silently wrong; entropy comes without names and enumerate_support with the name on the wrong axis. Sampling is not modelled.
  Theorems: `C59_log_prob_partial`, `C59_mean_partial`, `C59_shapes_partial`, `C59_bind_arrays`, `C59_index_arrays`, `C59_ranks_refuted`, `C59_short_value_refuted`, `C59_entropy_refuted`, `C59_support_refuted`.
* **C60** Expanding a distribution gives the shape asked for and keeps its parameters (partial). As C59, with the broadcast of the first batch axes of each parameter. Proved for array parameters with equally many batch axes; numbers are not expanded, parameters of different ranks raise AssertionError, an unfit shape is not an error.
  Theorems: `C60_expand_partial`, `C60_numbers_refuted`, `C60_ranks_refuted`, `C60_unfit_refuted`.

## Pyro's naming

Files: ShimModel, ShimProofs, ShimProps.

`Naming.from_shape`, `Naming.apply`, `PyroShim._broadcast_to_named` for tensors, the plates of a sample statement and
the renaming of its value. Not modelled: the two passes of a message through Pyro's stack, masks, guides.

* **C62** Under PyroShim names become plates and come back on the samples (partial). The two loops by induction on the names, with the axes of the names counted from the right as invariant; the index list of `apply` entry by entry. Samples and plates: always. Observations: with at most as many axes as the distribution; with more the name goes to the wrong axis.
  Theorems: `C62_observation_partial`, `C62_sample`, `C62_frames`, `C62_long_observation_refuted`, `C62_apply_fails`.

## Embedded distributions

Files: EmbModel, EmbSpec, EmbProofs, EmbProps.

What `evaluate` reads from each Pyro distribution class and passes to its constructor, as a table; Python's
binding of arguments to the constructor's signature. Signatures, conversions between parametrisations and defaults are
PyTorch's and Pyro's and trusted as written in the table. Not modelled: `ExpandedDistribution`, NumPyro's table.

* **C61** A Pyro distribution embedded as a term is rebuilt with the same parameters (partial). A check of an entry (positional attributes are the first of the signature, keywords the rest, nothing missing) is proved sufficient for all parameters and computed for the table. Proved for all classes of the table but two; StudentT is rebuilt with loc as df, Wishart with its Cholesky factor as covariance. ExpandedDistribution is not modelled.
  Theorems: `C61_rebuild_partial`, `C61_student_refuted`, `C61_wishart_refuted`.

## Operations as methods

Files: MethModel, MethSpec, MethProofs, MethProps.

`Operation.__set_name__`, `Operation.__get__`, `_instance_op`, `_ClassMethodOpDescriptor`, `__default_rule__`, calls and
`fwd` chains of handlers, `copy.copy`, rebuilding of dataclasses in terms and by `evaluate`, over a small language of programs.
The spec is an interpreter whose operations are (object, definition) and whose only state is the classes of the objects.
Not modelled: static methods, `singledispatchmethod`, objects without `__dict__`, fields, terms as receivers.

* **C63** Operations defined as methods belong to their objects (partial). Simulation: entries of the `__dict__`s stand for operations of the spec, injectively; induction on fuel over all tasks of the interpreter. The endless recursion is by induction on fuel, the other refutations compute both sides. Proved for hierarchies where no two operations have the same Class_method name and no class method is overridden, without copies and dataclasses; for each of these what is missing is refuted (wrong method, endless recursion, the original's operation, terms of a copy's operation).
  Theorems: `C63_methods_partial`, `C63_own`, `C63_same_name_refuted`, `C63_underscore_refuted`, `C63_classmethod_refuted`, `C63_copy_refuted`, `C63_dataclass_refuted`.

## Indexing in PyTorch

Files: TgetModel, TgetSpec, TgetProofs, TgetProps.

`torch_getitem` with its fast paths and its conversion of slices, integers and lists to index tensors; `torch.ops.aten.index`
(broadcasting, ranges, where the axes go) and `torch.arange` as library functions. The spec indexes with the integers at each
position of the index tensors (ArrSpec) and says where their axes go. Boolean masks are not modelled.

* **C64** Indexing with index tensors or named dimensions is PyTorch's indexing (partial). Through the desugared key (C31): at each position of the tensors `aten.index` is integer indexing; the place of the axes by a count of axes before and between tensors. Proved for keys of whole-axis slices, None, an ellipsis, integers and index tensors (of any shapes, when integers are not apart from tensors with axes). Each missing case is refuted: slices of parts leave axes or are transposed, bounds are not counted from the end or cut off, integers apart move axes, lists are not paired.
  Theorems: `C64_indexed_partial`, `C64_fits_partial`, `C64_slice_refuted`, `C64_transposed_refuted`, `C64_negative_refuted`, `C64_past_end_refuted`, `C64_integer_refuted`, `C64_list_refuted`.

## Array operations with names

Files: NopModel, NopSpec, NopProofs, NopLaws, NopProps.

The operations made by `_register_torch_op` and `_register_jax_op` (sizes, test of free variables, partial evaluation by
`vmap`, trees of results, terms kept), indexing of arrays with names and of terms, programs of both, and `evaluate` of the terms
they leave. The library is any function on lists of arrays (`lawful`: it looks at the elements, and result shapes depend on
argument shapes, as `vmap` requires). The spec runs the program at one position of the names. Not modelled: randomness,
operations in place, empty named dimensions inside `vmap`.

* **C65** Array operations act at each position of the named dimensions (partial). `vmap` then reshape then indexing inverts to one run per position; sizes of the arguments are exactly the names of the result; induction on programs and on terms. Values at positions: always, terms and later evaluation included. Evaluated at once: when each argument is an array, an array with names or a name; a nested term of names, as in x[a()] + (a() + 1), is never evaluated although its names have sizes.
  Theorems: `C65_pointwise`, `C65_evaluate`, `C65_named`, `C65_conflict`, `C65_sized_term_refuted`.

## Gathering and stacking

Files: GatModel, GatSpec, GatProofs, GatLaws, GatProps.

`indices_of`, `gather` and `stack` (indexed.py) on arrays with named dimensions: the sizes of the index tensors and of the axes
left, indexing at all positions with a range check, `broadcast_tensors` and `torch.stack` as functions of the library of NopModel.
The spec (`moves`) relates positions of the new value to positions of the old one. An index set is given in the order in which
its sets are iterated. Not modelled: other terms and structures of tensors as values, numbers in `stack`.

* **C66** gather selects the worlds of an index set, stack puts worlds together (partial). The key with integers looked up is the old key at the moved positions; then as for C65. Broadcasting: a position of the common shape squashed to each shape is in that shape. Values at positions, sizes, success and range errors: always. The documented binding is refuted: the variable stays free with the positions numbered anew, so gathering twice fails and the result does not combine with the value it came from. Names and dimensions can disagree.
  Theorems: `C66_gather`, `C66_gather_ok`, `C66_gather_range`, `C66_gather_ignores`, `C66_gather_all`, `C66_stack`, `C66_stack_same`, `C66_binds_refuted`, `C66_twice_refuted`, `C66_mixed_refuted`, `C66_names_refuted`.

## Function transformations

Files: FunModel, FunSpec, FunProofs, FunLaws, FunTrans, FunInst, FunExpr, FunJit, FunProps.

`_indexed_func_wrapper` of PyTorch and JAX with its variable `indexes`, `jit` with its cache of compiled shapes, `vmap`, `jacfwd`,
`jacrev`, `grad`, `hessian`, `jvp`, over the operations of NopModel. A function is any map from arrays to a tuple of values with
names (`traceable`: errors, names and shapes depend on argument shapes). Derivatives are any operator on functions of one number.
The spec (`func_at`) is the function at one position of the names; a transformation is any with the laws of `lawful_transform`,
shown for vmap, jacobians, grad and compositions. `vjp` is left out.

* **C67** Transformed functions act at each position of their names (partial). The wrapper turns names of results into leading axes; a lawful transformation acts on each part of the results by itself, and names put back on the axes from `start` on select it. jit: an invariant on the cache and the recorded names over all histories. Proved for every lawful transformation, hence vmap (results along axis 0), jacobians, grad and hessian of one argument, on arrays with names; jit when the shapes are new or names are the same in all calls. Refuted: jit when the names depend on the shapes or arguments have names, keyword arguments, out_dims=1, tuples of argnums, grad of a function with names in its result, unevaluated arguments, jvp with several results.
  Theorems: `C67_transformed`, `C67_vmap`, `C67_vmap_meaning`, `C67_jacobian`, `C67_grad`, `C67_hessian`, `C67_programs`, `C67_jit_partial`, `C67_jit_sound_partial`, `C67_jit_refuted`, `C67_jit_arguments_refuted`, `C67_keywords_refuted`, `C67_out_dims_refuted`, `C67_argnums_refuted`, `C67_grad_refuted`, `C67_terms_refuted`, `C67_jvp_refuted`, `C67_keywords_none`.

## Dataclass terms

Files: DcModel, DcSpec, DcProofs, DcProps.

`_construct_dataclass_term`, `_DataclassTermMeta` and `defdata`'s registry of term classes, searched in the order of
`functools.singledispatch`; getters of fields; `evaluate` on dataclasses; programs of fields, methods, `isinstance`, addition and
construction, run on terms or on objects by one interpreter with fuel. Operations have no arguments; base classes are given as
method resolution orders.

* **C68** Terms of dataclasses stand for their objects (partial). Simulation between the run on terms and the run on objects, by induction on fuel; terms in play are fixed points of `defdata`'s rebuilding in all later registries. The registry stays safe over all histories. Proved for all programs and histories when no class in use has a base class that is in use or registered (unless it was registered first), and when a term is an instance is proved exactly. Refuted: after a term of a base class was made, terms of the subclass have the base class's methods; values of subclasses; callable dataclasses, forward references, generic fields, fields named args, abstract classes, slots, init=False.
  Theorems: `C68_evaluate_partial`, `C68_instance`, `C68_history_refuted`, `C68_base_refuted`, `C68_subclass_refuted`, `C68_callable_refuted`, `C68_forward_refuted`, `C68_generic_refuted`, `C68_reserved_refuted`, `C68_abstract_refuted`, `C68_slots_refuted`, `C68_init_refuted`.

## Tool calls

Files: CallModel, CallSpec, CallProofs, CallLaws, CallProps.

`_serialize_tool`, `_validate_tool`, `_validate_tool_call`, `_serialize_tool_call`, `call_tool` with `RetryLLMHandler._call_tool`,
`nested_type` on the values of TupModel, and Python 3.12's `Signature.bind`, `BoundArguments.args` and `.kwargs`. The spec has
Python's calling convention (`receive`), what each parameter should receive, and the published schema (`admits`). The codec of scalars is
any one that round-trips by class and as `Any`. JSON text is taken as its value; mappings, unions and docstrings are left out.

* **C69** A tool call calls the advertised tool with the decoded arguments, and round-trips (partial). Binding keywords picks the arguments in the order of the parameters; splitting them into positional and keyword ones and binding by Python's rules gives them back, by induction on parameters. Values: induction on types, lists by whether the runtime types of the items agree. Advertised names: always. Schema and acceptance: parameters that can be given by name. Round trips and results: tools stored under their own name, values without variadic and named tuples, complex numbers in lists of one runtime type only. Each exception is refuted: a tool stored under another name, positional-only parameters, *args, **kwargs, tuple[T, ...], named tuples (a tool returning one ends the conversation with an error no handler catches), mixed lists of complex numbers.
  Theorems: `C69_advertised`, `C69_received_partial`, `C69_accepted`, `C69_schema_partial`, `C69_round_trip_partial`, `C69_result_partial`, `C69_name_refuted`, `C69_positional_refuted`, `C69_star_refuted`, `C69_keywords_refuted`, `C69_variadic_refuted`, `C69_named_refuted`, `C69_namedtuple_refuted`, `C69_complex_refuted`.

## Inlined schemas

Files: RefModel, RefSpec, RefProofs, RefProps.

`_inline_refs` on JSON values; fuel is Python's recursion limit. The spec is a separate semantics of JSON schema: which values a schema
allows, by the listed keywords, with references looked up in the definitions. Numbers are integers; objects are ordered lists of entries.

* **C70** Inlining references keeps the meaning of a schema (partial). A simulation in each direction: forward by induction on the steps of checking, backward by induction on the steps of inlining, both through one lemma on keywords for relations closed under conjunction and disjunction. Termination by rank of definitions and structure; a definition that reaches itself would end in ever fewer steps. Proved for schemas whose references stand alone among constraints, whose properties are not named $ref or $defs, and (for termination) without recursive definitions. Each exception is refuted: recursive types always end in RecursionError, constraints and descriptions beside a reference are lost, a property $defs is dropped and a property $ref raises AttributeError.
  Theorems: `C70_inlining_keeps_meaning_partial`, `C70_no_reference_left`, `C70_inlining_ends_partial`, `C70_inlining_once`, `C70_no_other_error`, `C70_other_references_kept`, `C70_recursive_definitions_fail`, `C70_recursive_types_refuted`, `C70_constraints_beside_references_refuted`, `C70_descriptions_beside_references_refuted`, `C70_property_names_refuted`.

## Synthesized functions

Files: SynModel, SynSpec, SynProofs, SynProps.

`_pydantic_callable` (`_validate`, `_serialize`), `_validate_signature_ast` and `_validate_signature_callable` over a small Python:
modules of definitions, assignments, classes and decorators; functions with closures, methods, built-ins on integers; evaluation with fuel, globals
by module. Source text is its syntax; `inspect.getsource` gives the statement of the definition. Annotations count only by presence.

* **C71** A synthesized function can be called as its type says, and comes back doing the same (partial). Counting positional parameters in the syntax and all of them at run time leaves positional ones only. Round trips by a simulation in lock step, by induction on fuel, of evaluation in the old store and in the store with the copy's module, for values equal up to the copy standing for the original. Proved for functions without decorators whose parameters are all positional without defaults beyond n; round trips for such functions with a return annotation, whose variables are in the context. Each exception is refuted: decorators can give a function that cannot be called so, Python callables are not checked, functions with defaults or *args are refused, Callable[[...], None] decodes nothing, lambdas, methods, classes and built-ins never come back, a variable missing from the context is noticed only at the call. Types of parameters are not modelled; the type checker is any check that may refuse.
  Theorems: `C71_takes`, `C71_decoded_partial`, `C71_signature`, `C71_decodes_partial`, `C71_round_trip_partial`, `C71_decorated_refuted`, `C71_values_refuted`, `C71_optional_refuted`, `C71_none_refuted`, `C71_forms_refuted`, `C71_builtin_refuted`, `C71_context_refuted`, `C71_identifiers`.

## unbind_dims of distributions

Files: UnbModel, UnbSpec, UnbProofs, UnbLaws, UnbProps.

`_unbind_distribution` and `_bind_dims_distribution` of NumPyro and Pyro on the distributions of DistModel: which parameters are indexed,
the check of batch shapes from parameter to parameter, Pyro's check of event shapes. `UnbSpec.restricts` says what it is for one distribution to
be another at a position of its leading batch axes.

* **C72** unbind_dims of a distribution names its leading batch dimensions, and bind_dims undoes it (partial). One lemma on parameters cut at a position of their leading axes: broadcasting, slices and events commute with the cut (induction on parameters). Both unbind_dims and bind_dims give such cuts. Round trips by comparing names, shapes and elements of each parameter; two steps by a simultaneous induction with both batch shapes seen. Proved for parameters that all have the full number of batch axes (NumPyro: also arrays without axes, in unbind_dims), without names in NumPyro. Each exception is refuted: NumPyro ignores parameters that have names, so naming in two steps or after bind_dims loses names silently; broadcast parameters raise ValueError; parameters of fewer axes, and event axes, are named wrongly without an error; with an array without axes the round trip is no distribution. Distributions as parameters (Independent) are not modelled.
  Theorems: `C72_unbind_partial`, `C72_succeeds_partial`, `C72_bind_partial`, `C72_bind_succeeds_partial`, `C72_unbind_bind_partial`, `C72_bind_unbind_partial`, `C72_pyro_steps`, `C72_pyro_events`, `C72_mean_partial`, `C72_log_prob_partial`, `C72_numpyro_steps_refuted`, `C72_numpyro_other_names_refuted`, `C72_broadcast_refuted`, `C72_ranks_refuted`, `C72_event_axes_refuted`, `C72_scalar_refuted`.

## The example normaliser (docs/source/lambda_.py)

Files: LcModel, LcSpec, LcProofs, LcLaws, LcCases, LcProps.

The five rules for add, each forwarding to the next, beta for App and Let, eta for Lam, `fvsof`, the renaming `defdata` does
when a Lam is built, and `evaluate` under a stack of handlers of variables, with fuel. `id` of operations is an arbitrary
function of the operations (injective where needed). `den` in LcSpec is the ordinary meaning of an expression. Simplified: adding
to a function is `Stuck` (Python raises or builds a meaningless term); types of terms are not computed.

* **C73** The example normaliser computes the values of programs and decides their equality (partial). Adding two sorted sums gives the sorted sum (four lemmas, by induction on the lists, for every stack of handlers that leaves their variables alone); evaluation of a function body under the handler of its parameter by induction on the body, with freshness of binders as invariant; programs by induction on their derivation. Canonicity: a sum is determined by its values at zero and at unit vectors, and a sorted list by its multiset. The failures are runs of the model, for all ids where said; the loop by induction on fuel. Proved for all programs of integers, variables, additions, lets and (curried) functions of integers whose functions depend on their parameters and whose lets do not mention their own variable in the value: the run ends, the result means the same, and for integer programs the normal form is canonical. False beyond: Let(x, x()+z(), x()+x()) gives 2x+3z (sort_add calls the handled variable again); Lam(y, 5) becomes 5; a function shared by a let is captured (twice twice) or loops forever although simply typed; functions and calls of unknown functions have no canonical form.
  Theorems: `C73_sound_partial`, `C73_decides_partial`, `C73_closed_partial`, `C73_again_partial`, `C73_one_result`, `C73_own_variable_refuted`, `C73_constant_function_refuted`, `C73_sharing_refuted`, `C73_ends_refuted`, `C73_functions_refuted`, `C73_calls_refuted`, `C73_fuel`.

## Operators on array terms

Files: AopModel, AopSpec, AopProofs, AopProps.

The operator methods of `_ArrayTerm` and `_TensorTerm`, Python's dispatch between numbers, arrays and terms (reflected methods, swapped
comparisons, `__torch_function__`), `bool` of a term, and `evaluate` of what is built. The libraries' functions are parameters. Trusted:
which function each operator of jax.Array and torch.Tensor is (documentation), and that JAX arrays defer to terms.

* **C74** Operators on free arrays mean the operators on arrays (partial). Induction on the expression: the built operand evaluates to the direct result, and terms evaluate to arrays. Stages by induction on the size of the operand. Proved for all expressions without conditionals (JAX: with them, whenever they build) and, for PyTorch, without %. False there: % on a free tensor is torch.fmod, so x % 3 at -1 gives -1 and not 2, and depends on which side is free; `if` on a free tensor takes the first branch. NumPy arrays as operands, divmod and round are not modelled; what the libraries' functions compute is arbitrary, except that they give arrays and that comparisons mirror.
  Theorems: `C74_operators_partial`, `C74_jax_branches_partial`, `C74_jax_if_raises`, `C74_stages`, `C74_torch_mod_refuted`, `C74_torch_mod_sides_refuted`, `C74_torch_if_refuted`, `C74_torch_mod`, `C74_torch_mod_integers`.

## to_event of distributions with names

Files: EvtModel, EvtSpec, EvtProofs, EvtUnbind, EvtProps.

`_DistributionMethodTerm`: the positional base distribution of a `to_event` term, its shapes, `log_prob`, `mean`, `expand`, `unbind_dims` and
`bind_dims`, over DistModel and UnbModel. A NumPyro distribution object is a record of shapes, density and mean; `to_event` of it sums the
density over the last axes, the sum being a parameter that depends on the elements only. `plain env d` in EvtSpec is NumPyro's distribution
made from the parameters at the positions `env`.

* **C75** to_event of a distribution with named dimensions keeps the names out of the event (partial). Invariant by induction on the nesting: the positional distribution has the names as leading batch axes, and cutting value and density at a position of the names gives the distribution there (base case from C59's lemmas, step: summing the last axes commutes with the cut). unbind_dims and bind_dims from C72's theorems by the same commutation. Proved for to_event with a number, nested in any way, over distributions with parameters of full rank (as in C59, C72). False: to_event() without a number also takes the axes of the names, so event_shape has them and log_prob raises, and bind_dims puts them into the event; to_event(n) with n beyond the batch axes takes names instead of raising; unbind_dims beyond the batch axes names event axes; expand of a to_event term returns it unchanged. sample, variance, entropy and Independent's own checks are not modelled.
  Theorems: `C75_shapes_partial`, `C75_log_prob_partial`, `C75_mean_partial`, `C75_unbind_partial`, `C75_bind_partial`, `C75_unbind_refuted`, `C75_bind_none_refuted`, `C75_none_refuted`, `C75_too_many_refuted`, `C75_expand_refuted`.

## PythonRepl

Files: RscModel, RscSpec, RscProofs, RscOff, RscProps.

`PythonRepl._apply` and `_collect`, `_repl_session` with its default, the splice in `ReplSession.__init__`, the environment `_call` makes, and
`Template.tools`, over a store of dictionaries, ChainMaps (lists of dictionaries, modified in place) and the variable `session` of each call.
A snippet is any function of the namespace (`exec_code` itself is C42, C43). RscSpec gives each call a session that is a plain
function from names to values. Not modelled: other tools, messages, functions that keep their namespace (C42).

* **C76** The Python session of a template call belongs to that call (partial). Refinement: invariant relating the store to the pure sessions (the call's ChainMap is session, arguments, context; its cell holds the session), with bounds below which a call changes nothing; induction on nested events. Without PythonRepl the same with erased requests; the unused session by a simulation. Proved for PythonRepl around the provider and all scripts that list tools only after the first request of a call: one session per call, shared by its snippets, visible to the rest of the call, gone afterwards. False: the first request copies every visible name, so the rest of the call no longer sees what tools bind even if no code is run; a deleted lexical name stays visible; template.tools outside a call puts such a copy (and what its exec_code binds) into the template's context for good, because the default session splices itself into the ChainMap it is given; before the first request it takes the session away from the call's environment; with the provider installed outside, every request makes a new session and deleted names come back.
  Theorems: `C76_scoped_partial`, `C76_untouched_partial`, `C76_unused_partial`, `C76_frozen_refuted`, `C76_deleted_refuted`, `C76_tools_refuted`, `C76_early_tools_refuted`, `C76_below_refuted`.

## Semi-ring dictionaries of the docs

Files: SrModel, SrSpec, SrProofs, SrLaws, SrCases, SrFuse, SrProps.

docs/source/semi_ring.py: values, Python's `+` on them, the operations, `eager`, `vertical_fusion`, and `evaluate` under handlers of variables,
with nameless binders (renaming is C08) and fuel. SrSpec gives programs a meaning in an environment of values (lazily: an unused variable may be
undefined) and describes `+` by what is at each path of keys. Left out: a `Let` whose value mentions its own variable, dictionaries as keys,
typing of terms.

* **C77** Programs over semi-ring dictionaries compute what they mean (partial). Soundness by induction on fuel with the substitution lemma for meanings; addition by induction on the right value; order by a swap lemma (definedness of + depends only on what is at the paths) and induction on permutations; complete evaluation by induction on bodies, first with unknown then with known variables; the rule by an invariant (no Dict of two bare arguments arises). Soundness and addition: all programs and values. Order: numbers and nested semi-ring dictionaries. Complete evaluation: bodies without binders over their own variables. False: a sum inside a sum (or a let) over a known dictionary raises AttributeError when its body uses the outer variables; a sum over the empty dictionary can raise; a record without variables as body leaves a term; duplicate keys in Dict are not added; sums of strings depend on the order; the fusion rule never fires on Dicts of pairs, and its right-hand side binds the second key to the first value.
  Theorems: `C77_sound`, `C77_add`, `C77_order_partial`, `C77_commutes_partial`, `C77_sum_evaluates_partial`, `C77_let_evaluates_partial`, `C77_opt_partial`, `C77_rewriting_partial`, `C77_nested_refuted`, `C77_let_sum_refuted`, `C77_empty_refuted`, `C77_record_refuted`, `C77_duplicates_refuted`, `C77_strings_refuted`, `C77_fused_refuted`, `C77_rewriting_refuted`.

## Miniature Pyro of the docs

Files: MpModel, MpSpec, MpProofs, MpLaws, MpCases, MpProps.

docs/source/minipyro.py: `sample`, `param` and `set_rng_seed` going down a stack of handlers (Tracer, Replay, Plate, block, default runner), calls
made by plates starting again at the innermost handler (C10), `elbo`, and `SVI.step` up to the gradient. Programs are trees of calls whose
continuations take values. Drawing, transforms and densities are parameters. MpSpec says which sites a program goes through, without handlers.
Left out: gradients, Adam, event_dim, log-probabilities as tensors.

* **C78** Miniature Pyro: traces, plates, the evidence lower bound and collected parameters (partial). A call below plates arrives expanded by all of them: induction on the number of plates that do not fit, shapes compared axis by axis. Programs by induction on their meaning, the trace being a fold over sites; the loss by an invariant on dictionaries (a parameter never overwrites a sample). seed by induction on the stack of handlers; the others are runs of the model. Proved for all programs whose data is given by keyword and not to distributions that plates expand, with tensors as initial values; the loss for programs that do not reuse names of samples. False: a plate that expands a distribution drops obs, so data is replaced by a draw; two samples of one name count once; a guide's parameter with the name of a model's sample is replayed as its value; seed always raises RuntimeError since set_rng_seed forwards to the default; a function as initial_value is not called; obs by position is refused under trace and plate; a trace inside a plate records the unexpanded distribution. Gradients and optimisers are not modelled.
  Theorems: `C78_trace_partial`, `C78_elbo_partial`, `C78_step_partial`, `C78_data_in_plates_drawn`, `C78_data_in_plates_refuted`, `C78_duplicates_refuted`, `C78_replay_refuted`, `C78_seed_refuted`, `C78_function_refuted`, `C78_position_refuted`, `C78_trace_inside_refuted`.

## Beam search of the docs

Files: BeamModel, BeamSpec, BeamProofs, BeamProps.

docs/source/beam.py: the four handlers of an expansion, `BeamCandidate.expand`, and the loop of `beam_search` with fuel. Programs are trees of
`choose` and `score`. `heapq` is any pair of functions that does what its documentation says (a sorted list is shown to be one); `random.choice` is
any function of a state that returns an element. A list of all candidates made is carried along for the statements.

* **C79** Beam search of the docs returns the best complete runs it met (partial). Expansion replays the parent's choices and makes one more: induction on the prefix. The loop keeps the invariant that seen = beam + dropped with nothing dropped above the beam. Ending: a candidate has beam_width children above it, so counting shows it is displaced, and what is unfinished after i rounds has made i choices. Never ending: the root stays. What is returned: all programs, widths from 1, random states and lawful heaps. Ends: programs in which every choice raises the score. False: expanded candidates stay in the beam until others with a greater score displace them, so with scores that never rise above 0 (logarithms of probabilities) the search never returns, whatever is chosen; a width of 0 returns the unfinished start; choices are drawn independently, so one run can fill the beam. Scores are integers (no rounding or NaN); programs that catch Suspend are outside.
  Theorems: `C79_found`, `C79_ends_partial`, `C79_never_refuted`, `C79_zero_refuted`, `C79_different_refuted`, `C79_running`.

## Unification of typed dictionaries

Files: TdModel.v, TdSpec.v, TdProofs.v, TdLaws.v, TdProps.v.

`unify` on typed dictionaries (unification.py 262-299, 383-503), with `canonicalize` (678-693) and `substitute`. A class is
given with its parameters (declared by the statement or by `Generic`), its base with arguments and its fields with `NotRequired` and `ReadOnly`. The specification (TdSpec.v) says which values a type
has, reading the parameters through any chain of bases as the typing specification does; it does not mention hints, substitution or unification. `made` are the dictionaries with the declared keys only,
`held` those that may have more. Not modelled: unions, `Any`, tuples and user generics (UnifModel.v has them), recursive classes (on which `canonicalize` does not end), several bases.

* **C80** Unification of typed dictionaries is structural subtyping: reads are safe and permitted writes keep the type (partial). Induction on the fuel of the unifier, with the invariant that one of the two types has no variables and that everything bound has none. `mono`: values of a type depend only on its variables and grow with them. `hints_ok`: the hints computed by substitution are the fields of the specification. Mutable fields are unified both ways; the second way gives the writes. Refuted by ten pairs of types. Proved for classes whose parameters are declared by the class statement and resolved at most one step up, with canonical fields (no list, dict, set) where there are parameters, and dictionaries made without further keys. False otherwise: a list field drops the arguments (Datum[str] passes as Datum[int]), the base's arguments and ReadOnly; Generic[T] parameters are never substituted; parameters two bases up stay free; a ReadOnly field of the type can be written through the pattern; with further keys an undeclared optional field or a mapping is unsound; a mutable mapping deletes required fields; mutable fields with a bounded variable never unify. Recursive typed dictionaries are outside the model.
  Theorems: `C80_reads_partial`, `C80_writes_partial`, `C80_mapping_writes_partial`, `C80_arguments_refuted`, `C80_old_generics_refuted`, `C80_base_refuted`, `C80_grandparent_refuted`, `C80_readonly_refuted`, `C80_forgets_refuted`, `C80_absent_refuted`, `C80_mapping_refuted`, `C80_delete_refuted`, `C80_bounded_refuted`.

## Example of the README

Files: RdModel.v, RdSpec.v, RdProofs.v, RdProps.v.

docs/source/readme_example.py: the three rules, Python's `+` on constants (integers, floats by Coq's SpecFloat) and terms, the coproduct as a list of rules tried from the
outermost (C05, C06), `evaluate`. The other operations have no handler; their default rules compute from constants or leave the term. The specification gives expressions their values and says what it is to be summed up.

* **C81** The README's rules for addition sum up every expression (partial). Termination on arguments that are summed up, by induction on the summed form (constant + sum, then sum + sum), then on expressions; values, summands and totals by induction on the fuel of `+`; a summed expression is determined by its total and summands. The three patterns exclude each other, so the order of rules does not matter. Proved for all expressions of integers (the order of rules for floats too). False: the README prints add(2, add(add(x(), 1), add(5, y()))) and add(8, add(x(), y())), but Python brackets the other way and the result is add(add(8, x()), y()); a sum of constants that is 0 is kept, so x() and x() + 1 + -1 differ; only constants are commuted; floats are reassociated (1e16 + (1.0 + x()) changes its value at x() = 1.0) but not gathered. bool constants are not modelled.
  Theorems: `C81_sums_partial`, `C81_summands_partial`, `C81_brackets_partial`, `C81_again`, `C81_order_of_rules`, `C81_printed_refuted`, `C81_zero_refuted`, `C81_commuted_refuted`, `C81_floats_refuted`, `C81_floats_left_refuted`.

## Lexical context of templates

Files: LexModel.v, LexSpec.v, LexProofs.v, LexProps.v.

`Template.define` (template.py 255-324): skipping class bodies by `__qualname__`, the names of the enclosing functions, the walk over the stack, the ChainMap; `_validate_prompt` (174-209) on characters; the lookup of
fields in a call. A frame is the scope it executes (module, call of a function, class body, each in its enclosing scope); the state gives the variables of each call, the local variables of its code and the enclosing variables
it mentions (both are in `f_locals`). Python 3.13's `f_locals` are live, 3.12's are as last accessed. LexSpec.v gives Python's scoping rule as a relation, without stacks. Not modelled: builtins, `global`, `exec`, bound methods (C63).

* **C82** A template's context is the lexical scope of its definition (partial). Names of scopes by induction give the names of the enclosing functions; class bodies are as many as the names after the last <locals>; the walk by induction on the condition that the functions are innermost of their names; lookup by induction on the scope (variables of enclosing functions that a frame mentions agree with the rule). Refuted by stacks. Proved for @Template.define used directly where at most one function is around, or all further ones are still running and are the innermost running functions of their names; for names that are bound where they belong (Python 3.12: and unchanged since). False: an enclosing function that has returned is lost; with recursion another call's variables are shown; a caller of the same name, even in another module, gives its variables; a helper in another module gives its globals; a wrapper without functools.wraps loses the enclosing functions; an unbound local shows the outer variable; in 3.12 later bindings (also the template itself) are missing; {x-y} is accepted and fails in every call; static and class methods are not checked. Builtins, global declarations and exec are not modelled.
  Theorems: `C82_lexical_partial`, `C82_one_function_partial`, `C82_accepted_partial`, `C82_fields_partial`, `C82_same_import`, `C82_returned_refuted`, `C82_recursion_refuted`, `C82_namesake_refuted`, `C82_helper_refuted`, `C82_wrapper_refuted`, `C82_unbound_refuted`, `C82_later_refuted`, `C82_field_refuted`, `C82_static_refuted`, `C82_words`.

## Agents

Files: AgModel.v, AgSpec.v, AgProofs.v, AgProps.v.

Instances with their `__dict__` (the cached history and the bound templates), the histories by identity, the contexts of class templates, and programs of steps with nested calls. Simplified: which template a class has under a name is given (C63), docstrings are numbers, a call makes one request. AgSpec.v tells the same programs of persons with a memory, without dictionaries or identities.

* **C83** An agent's template methods continue that agent's own conversation, under its own prompt, as itself (partial). Refinement: an invariant relates the histories in the instances' dictionaries with conversations (each history owned by one instance, each bound template with its instance and its history), kept by every step; nested calls by induction on the program with custom nested induction. Refuted by short programs. Proved for all programs without copies and assigned histories, of classes whose templates are from modules with one docstring, calls made by tools being forgotten. False: copy.copy(agent) keeps the bound templates, so the copy talks as the original, in its conversation; agent.__history__ = ... is not seen by templates already looked up; a template inherited from another module is sent with the system prompt of the template called first; an agent forgets what it was asked by tools; looking a template up on the class (ChatBot.send) adds self = None to the class template's context each time; an agent that is a dataclass with a term as a field raises AttributeError.
  Theorems: `C83_requests_partial`, `C83_histories_partial`, `C83_copy_refuted`, `C83_assign_refuted`, `C83_modules_refuted`, `C83_forgets_refuted`, `C83_class_access_refuted`, `C83_term_refuted`.

## The introduction

Files: IntroModel.v, IntroSpec.v, IntroProofs.v, IntroProps.v.

The rules of part 3 of docs/source/introduction.ipynb with their match patterns (a pattern for keyword arguments is a mapping or a sequence pattern), tried from the outermost, calls of `add` inside rules with fuel; the order of addresses (`id`) is arbitrary. Not modelled: constants other than integers, keyword arguments of terms. IntroSpec.v gives value, summands, total and grouping.

* **C84** The introduction's rules for addition bring equal sums into one normal form (partial). Normal forms as an integer and a list of summands; the result of each call of add is computed on them (appending a summand, an integer from either side, a normal form), by induction, for both patterns; permutation gives value and summands, stability gives idempotence and, with the corrected pattern, sorted lists, which are unique. Refuted by short sums. Proved: evaluation ends and groups every sum, keeps value (unless another operation has two arguments), integers and variables, and is stable; equal sums of one variable have one normal form; with the third rule's pattern corrected to Term(mv, (), {}), results are equal exactly for equal sums. False: the third rule never fires, as Term(mv, (), ()) has a sequence pattern for the keyword arguments, which are a mapping, so (1 + x) + y and (1 + y) + x differ for any order of x and y; the rules take any term with two arguments for a sum, so 1 + x * y becomes (1 + x) + y; 0 + x is not x; fails(fn) never raises, since it catches its own RuntimeError.
  Theorems: `C84_sums_partial`, `C84_keeps`, `C84_again`, `C84_one_variable_partial`, `C84_corrected`, `C84_fails_narrow_partial`, `C84_dead_rule_refuted`, `C84_canonical_refuted`, `C84_three_refuted`, `C84_pairs_refuted`, `C84_zero_refuted`, `C84_fails_refuted`.

## Named tensor notation

Files: NtModel.v, NtSpec.v, NtProofs.v, NtLaws.v, NtCases.v, NtProps.v.

docs/source/named_tensor_notation.ipynb: `subst` by names, `reduce` (names filtered, bound to the front, flattened, reduced along dimension 0, index 0) and the networks. A tensor has names with sizes, a positional shape and entries in the reals at a position of the names and a positional index; binding, naming, flattening, unfolding and reshaping move indices as PyTorch does; broadcasting is checked. NtSpec.v has no tensors but axes, positions and formulas. The axioms are those of Coq's reals. Not modelled: rounding, NaN, autograd, `Scoped`.

* **C85** The networks of the named-tensor notebook compute the formulas written above them (partial). Flattening k dimensions enumerates positions lexicographically (induction on the dimensions, div and mod); binding names likewise; so a reduction is a sum over positions. `is` composes: pointwise functions, products with sizes that agree, reductions, renamings, windows and blocks keep it; each network is a composition. Softmax by exp(a - ln b) = exp a / b; standardized entries by linearity of sums. Refuted by small tensors. Proved for all axes, sizes and entries: reduction over names of which at least one is an axis, RNN, Relu, Softmax, Unroll, Pool, Conv1d, Conv2d, means, variances, Standardize, InstanceNorm, BatchNorm; for the others what they compute instead. False: FullConn applies the logistic function to every product and adds the bias outside; Attention divides by |key| and not its root, and contracts over seq after the weights were renamed to seq2, so the result has the axis seq2; torch.max returns a pair, so max-pooling leaves a positional dimension of size one, after which every convolution with a kernel longer than one raises; LayerNorm with weights on chans and layer, as documented, gives a result with four axes unless the new names are the old ones; reduce over names that are no axes reduces the positional dimensions. Real numbers, no rounding; the Scoped annotations are not modelled.
  Theorems: `C85_reduce_partial`, `C85_unnamed_refuted`, `C85_rnn`, `C85_relu`, `C85_softmax`, `C85_unroll`, `C85_pool`, `C85_conv1d`, `C85_conv2d`, `C85_mean`, `C85_mean2`, `C85_standardize`, `C85_standardize2`, `C85_instancenorm`, `C85_batchnorm`, `C85_layernorm_partial`, `C85_layernorm_refuted`, `C85_fullconn_partial`, `C85_fullconn_refuted`, `C85_attention_partial`, `C85_attention_same_partial`, `C85_attention_axes_refuted`, `C85_attention_scale_refuted`, `C85_maxpool1d_partial`, `C85_maxpool2d_partial`, `C85_maxpool_refuted`, `C85_maxpool_then_conv_refuted`, `C85_broadcast`, `C85_broadcasts`.

## NumPyro distributions as terms

Files: NpdModel.v, NpdSpec.v, NpdProofs.v, NpdLaws.v, NpdProps.v.

The table of numpyro.py 428-1177 (operation, term class, embedding of every class), Python's binding of positional and keyword arguments, `defdata`'s evaluation of arguments under its analysis (which makes terms of objects one level down only), `evaluate` with handlers, and the distribution a term stands for (`_pos_base_dist`, without named dimensions: those are C72). Trusted: NumPyro's constructors, parameter names, defaults and attributes, and that its matrix conversions agree with each other. Not modelled: subclasses of registered classes, promotion of shapes.

* **C86** A NumPyro distribution as a term stands for the distribution the library would make (partial). Binding in two steps (operation, then library) equals binding once, by computation on lists; binding commutes with taking the distributions arguments stand for; an object made by the library is made again from the attributes its embedding reads; then induction on nested values, with the depth of objects as a measure. Facts on the table by computation over all its entries. Refuted by small calls, Wishart for all. Proved for all classes but Wishart, all spellings with no more positional arguments than the operation has, objects made without further options; NumPyro's signatures, attributes and conversions are trusted (table in NpdModel.v, conversions assumed to invert each other). n evaluations embed 2n levels. False: no Wishart of the library can be embedded (it has no df); Wishart(df, scale_tril) builds a Wishart whose scale matrix is the factor; options (is_sparse, validate_args, ...) are lost; LKJCholesky's third positional argument is refused; a MultivariateNormal term given by scale_tril has covariance_matrix None; one evaluation leaves a distribution within two others as an object; a handler is not asked about an object within another.
  Theorems: `C86_calls_partial`, `C86_attributes_partial`, `C86_evaluate_partial`, `C86_handled`, `C86_once_refuted`, `C86_inner_refuted`, `C86_wishart_refuted`, `C86_wishart_term_refuted`, `C86_options_refuted`, `C86_positional_refuted`, `C86_matrices_refuted`.

## Collections

Files: ColModel.v, ColSpec.v, ColProofs.v, ColLaws.v, ColProps.v.

The rules of `evaluate` for objects, terms, operations and collections (semantics.py 151-228) and `map_structure` (product_n.py 61-103), with `type(expr)(...)` for each type of the standard library; the free rule's evaluation of arguments. Equality of keys is any equivalence, whether a term hashes and what handlers do are parameters. ColSpec.v says as a relation what a value becomes, a dictionary being given by its keys' first places and their last values. Trusted: the standard library's constructors (tried in Python). Not modelled: UserString, `__post_init__`, renaming by binders (C02).

* **C87** Evaluation goes through collections and dataclasses and keeps them (partial). Nested induction over values with the members of every collection; inserting pair by pair gives the dictionary of the specification (induction from the end of the pairs); such a dictionary is unique, so results agree both ways. Agreement of the two functions by extensionality. Refuted by small values. Proved for lists, tuples, named tuples, UserList, bytearray, unbounded deque, dict, OrderedDict, defaultdict, mappingproxy, UserDict, views and dataclasses with all fields in __init__, nested to any depth, results and failures alike; sets for map_structure, for evaluate only with members that stay. False: a range (also array, memoryview) raises TypeError, so a free operation cannot take one; sets are not evaluated; a Counter counts its pairs; a ChainMap is put over a tuple; a deque loses its maxlen; a dataclass with a field(init=False) raises ValueError; items() with unhashable values raises; keys that become equal merge.
  Theorems: `C87_evaluate_partial`, `C87_same`, `C87_pairs`, `C87_free_partial`, `C87_map_structure_partial`, `C87_map_structure_same`, `C87_agreement_partial`, `C87_fields`, `C87_range_refuted`, `C87_sets_refuted`, `C87_counter_refuted`, `C87_chain_refuted`, `C87_deque_refuted`, `C87_dataclass_refuted`, `C87_items_refuted`, `C87_keys_refuted`.

## Operation.define

Files: DefModel.v, DefSpec.v, DefProofs.v, DefProps.v.

`Operation.define` on functions, built-in functions, types, operations and anything else (types.py 140-320), `Operation.__init__`, the guard of built-in functions with `fvsof` (collected operations threaded through, bound ones taken out), and calls without handlers. Functions, signatures (a code, or that of a variable, or none that `inspect` finds) and what operations bind are parameters. Values are those of ColModel. Simplified: keyword arguments are evaluated as a list of names and values.

* **C88** Operation.define makes a fresh operation that does what its argument says (partial). Identities by induction on programs. `fvsof` is empty exactly if no term is met, as the operation of the last term met is never taken out (nested induction over values; no operation binds itself). Calls by C87's lemmas on evaluation; copies by induction on the chain. Refuted by small definitions. Proved for all programs and chains of copies; calls for arguments of the collections that C87 keeps. False: int | str has no __name__, so define raises AttributeError, even with a name; so do callables without __name__ unless a name is given; a built-in function without a known signature (max) cannot be applied to terms; the operation of sum fails on a range; the operation of len counts the terms of a set. Static methods, class methods and single dispatch: C63.
  Theorems: `C88_fresh`, `C88_function`, `C88_free_partial`, `C88_variable_partial`, `C88_copies`, `C88_copies_free_partial`, `C88_builtin_partial`, `C88_builtin_term_partial`, `C88_builtin_later_partial`, `C88_union_refuted`, `C88_nameless_refuted`, `C88_signature_refuted`, `C88_range_refuted`, `C88_sets_refuted`.

## Adapters of types

Files: TadModel.v, TadSpec.v, TadProofs.v, TadProps.v.

`TypeToPydanticType.evaluate` with the registrations for tuples, named tuples, terms and operations (encoding.py 126-182, 297-394) over `TypeEvaluator` (unification.py 107-185), and what Pydantic reads for the result (trusted). The encodings of the other registered types, the meaning of constraints and the names of tuple members are parameters. TadSpec.v says, type by type, which value a JSON stands for, without adapters. Not modelled: callables and tools (C71, C69), type variables, coercions by Pydantic (numbers from text), its choice in unions when several types fit.

* **C89** Encodable[T] reads exactly the values of T (partial). Mutual nested induction: plain types are read by Pydantic as they should be; a good type has an adapted type read as the type should be (tuples by induction on their members, unions by determinacy of what is read). Refused types by induction on the type. Refuted by small types; the recursive alias for all fuel. Proved for all types without constraints outside of classes, without registered types or fixed tuples in the fields of classes and named tuples or behind generic aliases, and without empty tuples. Pydantic's reading is trusted (unions from the left; further members are passed over). False: the metadata of Annotated are put as one tuple, so Pydantic does not see constraints (nor descriptions); fields of dataclasses, typed dictionaries, models and named tuples are not looked at, nor what Pair[int] stands for, so complex numbers and images in them cannot be read and tuples have another form; tuple[()] is read from anything; an alias that mentions itself ends in RecursionError. Callables: C71; tools: C69.
  Theorems: `C89_reads_partial`, `C89_refused`, `C89_constraint_refuted`, `C89_class_refuted`, `C89_class_tuple_refuted`, `C89_named_tuple_refuted`, `C89_generic_refuted`, `C89_empty_tuple_refuted`, `C89_recursive_refuted`.

## Methods of free arrays

Files: JmModel.v, JmSpec.v, JmProofs.v, JmProps.v.

The parameters of every method of `_ArrayTerm` (jax/_terms.py 229-405) with what it forwards, Python's binding of arguments with keyword-only parameters, and the parameters of the methods of `jax.Array` (trusted, from JAX's documentation; options that differ between versions are left out). A call is compared by the values that each parameter of the library's function receives. `x.at[k].set(v)` with the identity of its operation. What the functions of the library compute on named arrays is C65 and C74.

* **C90** A method of a free JAX array is the method of arrays (partial). A general lemma on two signatures with a common start (binding the positional part, then the rest parameter by parameter, forwarding everything by name), whose conditions are checked for the table by computation. What differs is shown for all arguments by computation. Proved for all 35 methods of the table and all calls with positional arguments in the common start of both signatures and keywords that the term's method has; reshape for all calls. JAX's signatures are trusted (table in JmModel.v). False: all, any, argmax, argmin, max, mean, min, prod, ptp, std, sum and var take the second positional argument for keepdims, where arrays take it for dtype or out, silently; sort and argsort take positional options that arrays refuse; dtype= is refused; transpose(1, 0) is refused and transpose(axes=...) accepted; flatten, item and others are missing; x.at[k].set(v) defines a new operation at each call, so the same update written twice gives different terms and cannot be handled.
  Theorems: `C90_methods_partial`, `C90_keywords_partial`, `C90_positions_partial`, `C90_listed`, `C90_reshape`, `C90_transpose_partial`, `C90_second`, `C90_positional_refuted`, `C90_sort_differs`, `C90_sort_refuted`, `C90_dtype_differs`, `C90_dtype_refuted`, `C90_transpose_differs`, `C90_transpose_refuted`, `C90_axes_differs`, `C90_missing_differs`, `C90_missing_refuted`, `C90_update_differs`, `C90_update_refuted`.

## Vector-Jacobian products

Files: VjpModel.v, VjpSpec.v, VjpProofs.v, VjpLaws.v, VjpExpr.v, VjpCases.v, VjpProps.v.

`vjp` (torch.py 679-712) over the arrays of ArrModel, NopModel and FunModel: names taken off the arguments, put back inside the wrapped function, taken off its results and the cotangents, put back on the gradients. `torch.func.vjp` is the sum of derivatives times cotangents over all elements; the derivative of a function of one number is a parameter. VjpSpec.v defines the gradient with positions of names and elements, by changing one element of one argument at one position, and the functions concerned (results at a position depend on the arguments there; names and shapes on names and shapes). Not modelled: trees deeper than one level, several cotangents for one tuple spelled as arguments, and that the returned result was made while torch traced.

* **C91** vjp of a function of arrays with named dimensions is the vector-Jacobian product over all positions of the names (partial). Names taken off give the array of all positions (C67's lemmas); indexing is injective in position and element, so setting an element of that array is setting one element at one position; the wrapped function on the changed array then agrees with the function on the changed argument everywhere, and the sum over the indices of a result splits into positions and elements. At positions that differ on the argument's names the argument is unchanged, so derivatives vanish. Programs by nested induction. Refuted by 2x2 arrays. Proved for every function whose results at a position depend on the arguments there, hence all programs of indexing and lawful library functions, any derivative, arguments in which vjp succeeds and cotangents with the names of the results in the same order. False: cotangents with the names in another order of equal sizes silently give the gradient of the transposed cotangent; cotangents without the names are refused; has_aux=True always raises ValueError; an argument with a name used twice raises.
  Theorems: `C91_sums`, `C91_result`, `C91_gradient_partial`, `C91_pointwise`, `C91_accepts`, `C91_programs`, `C91_order_refuted`, `C91_missing_refuted`, `C91_aux`, `C91_aux_refuted`, `C91_twice_refuted`, `C91_terms`.

## Annotations of signatures

Files: AnnModel.v, AnnSpec.v, AnnProofs.v, AnnProps.v.

`Operation._signature` (types.py 94-108) with `typing.get_type_hints` (trusted), `Scoped[...]`, the checks and `infer_annotations` (syntax.py 126-318), `IsRecursive` (template.py 43-62, 98-100). AnnSpec.v says which annotation another one spells, which scope is declared, where a variable occurs and what joining a scope with a root is. Scopes are lists compared as sets; the fresh root is a number larger than all in use. Not modelled: ParamSpecs, literals, aliases, unions with other members than variables and classes in a scope.

* **C92** Annotations in the signature of an operation mean what they say (partial). Nested induction over annotations for reading; the root as what all scopes share; the new signature parameter by parameter, its root by the freshness of the added variable, hence the post-condition never fails and inferring again passes the same checks. Agreement with TermModel's abstract signatures by computation. Refuted by small signatures. Proved of all signatures: reading, quoting among globals, what is accepted and inferred, idempotence, agreement with the binders of terms. False: quoted local names are NameErrors; Scoped[A | int] is accepted; two scopes on the result are accepted and the second dropped; scopes inside types are ignored and lists of variables escape the check of the result; IsRecursive on a parameter is never refused.
  Theorems: `C92_read`, `C92_quoted`, `C92_unknown`, `C92_local_refuted`, `C92_scope`, `C92_scope_refused`, `C92_scope_refuted`, `C92_accepts`, `C92_errors`, `C92_inferred`, `C92_within`, `C92_again`, `C92_terms`, `C92_check`, `C92_return_refuted`, `C92_nested_refuted`, `C92_list_refuted`, `C92_recursive`, `C92_recursive_refuted`, `C92_recursive_never`.

## Terms of iterables and for-expressions

Files: ItModel.v, ItSpec.v, ItProofs.v, ItProps.v, StmModel.v, StmSpec.v, StmProofs.v, StmProps.v.

`iter` and `next` on terms (syntax.py 753-777), the terms straight-line programs build from free iterables, and `evaluate` on them with a heap of one-shot iterators; ItSpec.v is the step-by-step meaning of the same programs. `defstream` (syntax.py 744-750) is an operation of TermModel with its signature. Elements are integers and the only operator is `+`; the only loop is a running sum.

* **C93** A program over a free iterable means that program over the iterable; a for-expression binds just its variables (partial). Induction over runs with an invariant relating the program's iterators to iterator terms and unused iterators of collections to full lists; evaluation of the returned sum is the evaluation from the left of the values it mentions. Loops by induction over fuel. For-expressions from the rule for bound variables and the free variables of constructed terms (C14). Refuted by small programs. Proved when no iterator of a collection is advanced twice and elements of one-shot iterators are used once each in order. False otherwise: two nexts on a list give its first element twice, a value used twice is taken twice, an element not used is not taken and its StopIteration is lost, loops over a free iterable never end. For-expressions bind exactly the operations held by their arguments, which is the keys unless operations stand among the values; the stream of a variable is in its own scope; evaluation never gives the elements.
  Theorems: `C93_in_order`, `C93_collections`, `C93_first_elements`, `C93_next_twice_refuted`, `C93_used_twice_refuted`, `C93_skipped_refuted`, `C93_empty_unused_refuted`, `C93_loop_differs`, `C93_loop_refuted`, `C93_stream_binds`, `C93_stream_bound_exactly`, `C93_stream_free_variables`, `C93_stream_values_refuted`, `C93_stream_outer_refuted`, `C93_stream_stays`, `C93_stream_elements_refuted`.

## Attributes of arrays with named dimensions

Files: AttModel.v, AttSpec.v, AttProofs.v, AttProps.v.

`shape`, `size`, `numel`, `ndim`, `len`, iteration, `item`, `requires_grad_` of `_EagerTensorTerm` (torch.py 544-590) and `_EagerArrayTerm` (_terms.py 408-431) on the values of NopModel, and the terms made by defdata alone while tracing. Library methods of plain arrays are trusted.

* **C94** An array with named dimensions describes itself as the array at each position of its names (partial). From the pointwise theorem of C65: the shape from the index of the term, elements counted by unravelling, rows by indexing with an integer, whose success needs that the names of every built value have one size each (shown for all programs). Traced terms by induction over the index. Proved of the values of all programs: shape, number of elements, axes, sizes of axes, len and rows. False: without axes len and iteration raise IndexError instead of TypeError; requires_grad_ returns the array without its names; while a function is traced, shape counts integers in an index as axes and slices by their full length. item raises ValueError even with one element at each position.
  Theorems: `C94_shape`, `C94_size`, `C94_ndim`, `C94_size_at`, `C94_rows`, `C94_scalars`, `C94_scalar_refuted`, `C94_requires_grad_refuted`, `C94_traced_differs`, `C94_traced_refuted`, `C94_traced_slice_refuted`, `C94_item_refuted`.

## Types of values

Files: NstModel.v, NstSpec.v, NstProofs.v, NstProps.v.

`nested_type` (unification.py 857-1112) on values nested from atoms, strings, tuples, named tuples, collections, mappings, callables, operations and terms. Classes are names; what `canonicalize` gives for a class (656-722) and the subclass relation are given, with the laws of `library`. Annotations in signatures are types already read.

* **C95** The type found for a value is a type the value has (partial). Soundness by induction over nested values against a separate definition of having a type; equality of types sound, a typed dictionary equal to none; failures characterised exactly by induction; order by permutations. Proved of all nested values but named tuples of two or more items and mappings other than dictionaries with one item. False: such named tuples get the type of one-item tuples, such mappings that of dictionaries; typing.NamedTuples and mappings of classes with fixed parameters are refused; a list of dictionaries of several types loses the type of its items.
  Theorems: `C95_sound`, `C95_fails`, `C95_order`, `C95_items`, `C95_named_never`, `C95_named_refuted`, `C95_proxy_refuted`, `C95_fixed_refuted`, `C95_typed_refuted`, `C95_items_refuted`, `C95_mixed`.

## Images

Files: ImgModel.v, ImgSpec.v, ImgProofs.v, ImgProps.v.

`_validate_image`, `_serialize_image` (encoding.py 397-414) with Base64 of Python's library (the lenient reader of binascii), `str.split`, `str.startswith` on characters and bytes as numbers. The image library (save, open) is given.

* **C96** An image comes back from its encoding, and a data URL is read as what it says (partial). Base64 specified by digits of numbers; encoding by induction three bytes at a time, decoding by induction over that relation through the states of the reader; splitting by induction. Proved: Base64 both ways, the round trip of images as bytes, all Base64 data URLs of images. Saving and opening PNGs are given. False: a data URL that is not Base64 is read as if it were; characters that are not Base64 are skipped and what follows padding is lost, without an error.
  Theorems: `C96_encodes`, `C96_decodes`, `C96_roundtrip`, `C96_reads`, `C96_refuses`, `C96_plain_refuted`, `C96_junk`, `C96_junk_refuted`, `C96_rest_refuted`, `C96_whole`.

## Code snippets

Files: SnpModel.v, SnpSpec.v, SnpProofs.v, SnpProps.v.

Decoding and encoding of code objects (encoding.py 208-270), `scan_non_nestable` (evaluation.py 117-139), `parse`/`compile` of both providers; `str.splitlines`, `linecache` and the compiler's rules for imports as Python has them. Parsing and the type check are given functions; names of snippets (uuid4) are never repeated.

* **C97** Code a model writes is kept as written, and what is accepted can stand in a function body (partial). Invariant of the line cache over all sequences of events (snippet names handed out once, entries never checked against files); lines by induction on length; imports by induction over statements. Proved: the source comes back through any later decodings, reads and checks of the line cache; imports exactly, and with RestrictedPython all accepted code can be nested. False: a star import in a block is accepted; the source is lost if the line cache is cleared; code objects not decoded encode to no source.
  Theorems: `C97_source`, `C97_again`, `C97_fair`, `C97_lines`, `C97_nestable`, `C97_accepted`, `C97_restricted`, `C97_star_refuted`, `C97_cleared_refuted`, `C97_foreign_refuted`, `C97_decides`.

## Single dispatch

Files: Sd{Model,Spec,Proofs,Laws,Cache,Cases,Props}.v.

The registry behind _CustomSingleDispatchCallable (effectful/ops/types.py 25-48) is functools.singledispatch; its
algorithm (_c3_merge, _c3_mro, _compose_mro, _find_impl, dispatch with its cache and token, register, unions) is modelled
branch by branch over arbitrary tables of classes. The specification speaks of issubclass, bases, __mro__ and the
registered classes only, with its own relation for C3. Trusted: that the tables describe Python's classes (bases older
than the class, __mro__ their closure, and where said the C3 order), that get_cache_token changes with each
ABC.register, and that the algorithm is the standard library's (read from functools.py, not part of /repo).

* **C98** The rule used for a type is that of the most specific registered class (partial). merged orders keep the order of every sequence, so composed orders are closed under bases, each class before its bases; every registered superclass, or one below it, is in the order; hence the first registered member is most specific. Fuel suffices by a measure on abstract classes left and the age of the class. The cache by an invariant over all histories. Counterexamples on tables checked against Python. The choice is proved to be a most specific registered superclass, the failures are described, and the cache is proved invisible. Refuted: a type with __call__ and __iter__ raises RuntimeError in defdata; of equally good classes the first registered may win silently; an abstract class with its bases the other way round makes a single choice fail; with bases that mix abstract and other classes the order is not that of __mro__; a rule for a union with an abstract class may come too late.
  Theorems: `C98_exact`, `C98_best`, `C98_errors`, `C98_least`, `C98_inherited`, `C98_order`, `C98_cache`, `C98_callable_iterable_refuted`, `C98_order_refuted`, `C98_inconsistent_refuted`, `C98_mixed_refuted`, `C98_union_refuted`, `C98_first`, `C98_unrelated`.

## Feedback on errors

Files: FbModel.v, FbSpec.v, FbProofs.v, FbProps.v.

The three errors with `__str__` and `to_feedback_message` (completions.py 101-178), `call_tool` (463-487) and RetryLLMHandler (553-644). Tracebacks are texts; `traceback.format_exc` prints the innermost exception being handled. Trusted: that tenacity's loop leaves the `except` before it calls `before_sleep` (tenacity is not part of /repo and was not available to check).

* **C99** A model is told of its errors, and of nothing else (partial). Induction over the attempts for requests and endings; texts by a relation of containment; counterexamples by a character that does not occur. Proved of all attempts and settings: what each request carries, how retrying ends, what tools' errors become. False: tracebacks of decoding errors are never included, as the callback runs outside of the except block (it prints NoneType: None, or the traceback of an unrelated exception the caller is handling); classes outside Exception and failures to encode a result are not caught though asked for.
  Theorems: `C99_told`, `C99_ends`, `C99_quiet`, `C99_tool_caught`, `C99_tool_uncaught`, `C99_tool_returns`, `C99_untraced`, `C99_traceback_refuted`, `C99_leaks`, `C99_leak_refuted`, `C99_base_refuted`, `C99_unencodable_refuted`.

## Cached calls

Files: MemModel.v, MemSpec.v, MemProofs.v, MemLaws.v, MemProps.v.

`functools.cache` (the unbounded `lru_cache` of Python's library with `_make_key`) as used on templates in docs/source/llm.ipynb and on `name_to_sym` (indexed.py 162-164) and the `_register_*` functions. What a cached function does is any tree of nested calls and endings, so that nothing is assumed about it. Trusted: that a dictionary finds keys by `==` (hashes agree with equality), and that the C wrapper does what functools.py says.

* **C100** A cached call is answered as the same call was first answered (partial). Equality of values against a relation by nested induction; keys by splitting at the mark; sessions by induction over trees of calls with invariants on the dictionary (each entry justified by an earlier run; each answer still found) and a frame lemma. Proved of all sessions: keys are equal exactly for the same call, answers come from runs of the same call, exceptions are not kept, and, if no call is made again while it runs, one answer for ever. False: arguments equal but of different type share an answer; spelling and order of arguments divide it; a term made without a provider is kept under every provider; a call that repeats itself inside gets two answers; lists are refused.
  Theorems: `C100_keys`, `C100_answers`, `C100_once`, `C100_runs`, `C100_unhashable`, `C100_names`, `C100_numbers_refuted`, `C100_spelling_refuted`, `C100_order_refuted`, `C100_handler_refuted`, `C100_nested_refuted`, `C100_lists_refuted`, `C100_hashes`.

## Offers under stacks of handlers

Files: OffModel.v, OffSpec.v, OffProofs.v, OffProps.v (on ToolsModel.v).

`LexicalReaders._collect` and `PythonRepl._collect` (completions.py 261-349) in any stack over `collect_tools`, and the view of the call's environment once the session's dictionary is put in front (evaluation.py 610-633; `ChainMap` as in Python's library). Snippets are given by the bindings and deletions they make. Trusted: that they do not reach below the session's dictionary.

* **C101** Handlers that offer tools compose, and keep offering them while the model runs code (partial). Induction over the stack from the specification of readers (C50); the view by the last event of each name; stability by an invariant that the tools and agents seen are those of the environment, since collecting skips all other values. Proved of all stacks, environments and snippets: what is offered and when collecting raises. Tools stay on offer if each has one name and snippets bind neither tools nor names of tools or agents. False otherwise: a second name given to a tool by a snippet takes its first away, or with LexicalReaders ends the call with an AssertionError; a user's tool called exec_code is not offered with PythonRepl; whether collecting raises may depend on the order of the handlers.
  Theorems: `C101_exact`, `C101_order`, `C101_rounds`, `C101_stable_partial`, `C101_shadow_refuted`, `C101_renamed_refuted`, `C101_alias_refuted`, `C101_order_refuted`, `C101_rounds_alone`.

## Readers of variables

Files: RdrModel.v, RdrSpec.v, RdrProofs.v, RdrProps.v.

`_LexicalVariableTool.define` (completions.py 184-222), the loop of `LexicalReaders._collect` (269-292), decoding of a round's calls (427-437), `call_tool` (464-488) and the rounds of a template call (687-695) over variables that hold integers, strings, values without a schema, and references to lists that code changes in place. The specification is an inductive relation between lists, a value and its JSON. Trusted: that pydantic makes a schema for every type built from integers, strings and lists and for `list` alone, none for a class it does not know, and fails to dump a value of such a class under `list`; that `RecursionError` is what a list containing itself gives (it is not among the errors caught).

* **C102** A reader says what is in the object its variable held when it was offered (partial). Reading and dumping against the relation by induction on the limit of recursion; runs by induction over the calls, rounds by induction with the state reached; the cyclic list fails under every limit by induction. Proved of all rounds, assignments and changes of lists in place: what is said, that reading changes nothing, which variables are offered at least, and when no request is made. False: the description's 'current value' after an assignment in the same round; a list of mixed types is offered and breaks the call when read, as does one changed after it was offered; a list that contains itself is not skipped but makes every request fail.
  Theorems: `C102_says`, `C102_is_said`, `C102_assignments`, `C102_only_reads`, `C102_error_last`, `C102_offered`, `C102_offered_own`, `C102_no_request`, `C102_undecodable`, `C102_stops`, `C102_all_rounds`, `C102_current_refuted`, `C102_readable_refuted`, `C102_stays_readable_refuted`, `C102_skipped_refuted`, `C102_acts`, `C102_skips`.

## Mutation tests

`seeded/LOG.jsonl` lists wrong versions of model definitions tried in a scratch copy, the theorem or lemma
that then fails, and the theorems added when none did.
