{"id": "C01", "title": "Installing an interpretation is undone on every exit", "statement": "After a `with handler(i): body` or `with interpreter(i): body` block is left, by normal return or by any exception, the interpretation in force is exactly the one in force when the block was entered; calling an operation, evaluating a term or forwarding never leaves the current interpretation changed either.", "quantifier": "every program (any nesting of blocks, operation calls, forwards, try/except), every interpretation, every starting interpretation, every outcome", "why_tests_cant": "The program that runs inside the block is arbitrary user code and may leave through an exception raised at any depth; tests only sample a few bodies and exit points.", "anchors": ["effectful/internals/runtime.py:interpreter", "effectful/ops/semantics.py:handler", "effectful/ops/types.py:Operation.__call__", "effectful/internals/runtime.py:_save_args", "effectful/internals/runtime.py:_set_prompt"]}
{"id": "C02", "title": "Coproduct handles the union, right side wins", "statement": "`coproduct(a, b)` handles exactly the operations handled by `a` or by `b`; calling an operation handled by `b` runs b's function with the caller's arguments; calling one handled only by `a` runs a's function.", "quantifier": "every pair of interpretations and every operation and argument list", "why_tests_cant": "The claim quantifies over all key sets and overlaps; tests use two or three fixed operations.", "anchors": ["effectful/ops/semantics.py:coproduct"]}
{"id": "C03", "title": "Coproduct is associative", "statement": "`coproduct(coproduct(a, b), c)` and `coproduct(a, coproduct(b, c))` are interchangeable: every program run under one yields the same result or exception and the same external effects as under the other.", "quantifier": "all interpretations a, b, c with arbitrary handler functions (which may forward, call other operations, install handlers, raise), all programs, all surrounding handlers", "why_tests_cant": "Observational equivalence quantifies over all client programs and all handler bodies.", "anchors": ["effectful/ops/semantics.py:coproduct", "effectful/internals/runtime.py:_set_prompt", "effectful/internals/runtime.py:_save_args", "effectful/internals/runtime.py:_restore_args"]}
{"id": "C04", "title": "The empty interpretation is a unit for coproduct", "statement": "Installing `coproduct({}, a)` or `coproduct(a, {})` with `handler` behaves like installing `a`, for every program.", "quantifier": "all interpretations, programs, surrounding handlers", "why_tests_cant": "Equivalence under all programs.", "anchors": ["effectful/ops/semantics.py:coproduct", "effectful/ops/semantics.py:handler"]}
{"id": "C05", "title": "Nesting handlers equals installing their coproduct", "statement": "`with handler(a): with handler(b): body` yields the same result/exception and external effects as `with handler(coproduct(a, b)): body`.", "quantifier": "all a, b, bodies, surrounding handlers", "why_tests_cant": "Equivalence under all programs.", "anchors": ["effectful/ops/semantics.py:handler", "effectful/ops/semantics.py:coproduct"]}
{"id": "C06", "title": "fwd() reaches the next enclosing handler, then the default, in order", "statement": "When n handlers for one operation are stacked and each forwards once, a call runs them innermost to outermost, each exactly once, then the default rule exactly once, and results return through them in reverse order; the arguments seen by the next handler are the ones passed to `fwd`, or the current ones if `fwd` is called without arguments.", "quantifier": "every n, every stack of forwarding handlers (that take parameters), every argument list", "why_tests_cant": "Depth is unbounded; tests fix depth at most 3.", "anchors": ["effectful/ops/semantics.py:fwd", "effectful/internals/runtime.py:_set_prompt", "effectful/internals/runtime.py:_restore_args", "effectful/ops/types.py:Operation.__call__"]}
{"id": "C07", "title": "fwd() without arguments forwards the current arguments", "statement": "Inside a handler for an operation, `fwd()` with no arguments calls the next handler (or the default rule) with the arguments with which the current handler was called.", "quantifier": "all handlers, including those taking no parameters and those installed through `interpreter`/`evaluate(intp=...)`, all nestings of operation calls", "why_tests_cant": "Whether the saved arguments are the right ones depends on the whole dynamic nesting of handler calls.", "anchors": ["effectful/ops/semantics.py:fwd", "effectful/internals/runtime.py:_save_args", "effectful/internals/runtime.py:_restore_args", "effectful/internals/runtime.py:_get_args"]}
{"id": "C08", "title": "Default and free rules of unhandled operations", "statement": "An operation with no handler for itself or any applicable `__apply__` returns what its default computes from the caller's arguments; if the default signals `NotHandled`, the result is the term made of that operation and those arguments; any other exception reaches the caller unchanged.", "quantifier": "every operation (at any subclass depth), default body and argument list", "why_tests_cant": "The dispatch path through the `__apply__` chain is different at every subclass depth.", "anchors": ["effectful/ops/types.py:Operation.__call__", "effectful/ops/types.py:Operation.__default_rule__", "effectful/ops/types.py:Operation.__init_subclass__", "effectful/ops/types.py:__apply__"]}
{"id": "C09", "title": "An __apply__ handler sees every otherwise unhandled call exactly once, as (op, *args)", "statement": "With a handler installed for the `__apply__` of an operation class, each call to an operation of that class or a subclass that has no more specific handler invokes the `__apply__` handler once with the called operation followed by the call's arguments.", "quantifier": "every class in every subclass chain, every operation, every argument list", "why_tests_cant": "Class depth is unbounded and handlers may be installed at any level.", "anchors": ["effectful/ops/types.py:Operation.__call__", "effectful/ops/types.py:Operation.__init_subclass__"]}
{"id": "C10", "title": "The handler stack implements the documented dynamic handler semantics", "statement": "Running a program with the library gives the same result, exception and external effects as running it on a machine that keeps for each operation the list of installed functions (innermost first) and for `fwd` the rest of that list.", "quantifier": "every program over operations, handlers, interpreters, coproducts and fwd", "why_tests_cant": "A refinement over all executions.", "anchors": ["effectful/internals/runtime.py:*", "effectful/ops/semantics.py:coproduct", "effectful/ops/semantics.py:handler", "effectful/ops/types.py:Operation.__call__"]}
{"id": "C11", "title": "Handlers installed in one thread never affect another", "statement": "A thread never sees a handler installed by another thread, and a new thread starts with no handlers, under every interleaving, including concurrent first use of the library.", "quantifier": "every number of threads, every schedule of enter/exit/lookup actions", "why_tests_cant": "Interleavings are not under test control.", "anchors": ["effectful/internals/runtime.py:Runtime", "effectful/internals/runtime.py:get_runtime", "effectful/internals/runtime.py:interpreter"]}
{"id": "C12", "title": "A handler installed by a thread is in force for that thread from the moment it is installed", "statement": "After `with handler(i)` is entered in a thread, lookups by that thread see `i` until exit, under every interleaving with other threads, including when several threads are the first users of the library.", "quantifier": "every schedule, including concurrent first use", "why_tests_cant": "The race window is a few bytecodes at first use.", "anchors": ["effectful/internals/runtime.py:get_runtime", "effectful/internals/runtime.py:interpreter"]}
{"id": "C13", "title": "Leaving blocks in any order restores the outer interpretation", "statement": "If several `handler` blocks are entered and left in an order that need not be last-in-first-out (e.g. blocks inside suspended generators), once all are left the interpretation is the one before the first was entered, and no left block's handlers are in force.", "quantifier": "all sequences of enter and exit events", "why_tests_cant": "Generator interleavings are unbounded.", "anchors": ["effectful/internals/runtime.py:interpreter"]}
{"id": "C14", "title": "Variables bound by an operation are not free in the resulting term", "statement": "For an operation with `Scoped` annotations, variables passed in a binding position are not among the free variables of the constructed term because of the positions they scope over, and all other free variables of the arguments remain free.", "quantifier": "all binding signatures, all argument terms", "why_tests_cant": "All signatures and all term shapes.", "anchors": ["effectful/ops/syntax.py:Scoped", "effectful/ops/syntax.py:defdata", "effectful/ops/types.py:Operation.__fvs_rule__", "effectful/ops/semantics.py:fvsof"]}
{"id": "C15", "title": "Constructing a binding term renames binders to fresh variables and nothing else", "statement": "The term built by a binding operation is alpha-equivalent to the naive application of the operation to its arguments; each bound variable is replaced by one that occurs nowhere else; repeated construction never identifies binders of different terms.", "quantifier": "all binding signatures, all terms, any history of fresh-name creation", "why_tests_cant": "Freshness relates to the entire history.", "anchors": ["effectful/ops/syntax.py:defdata"]}
{"id": "C16", "title": "Substitution by handlers is capture-avoiding", "statement": "Evaluating a term while handling a free variable `x` with a function returning `e` yields the capture-avoiding substitution of `e` for the free occurrences of `x`.", "quantifier": "all terms, including terms containing several copies of the same subterm; all x and e", "why_tests_cant": "Capture requires particular sharing patterns of bound variables.", "anchors": ["effectful/ops/semantics.py:evaluate", "effectful/ops/semantics.py:_evaluate_term", "effectful/ops/semantics.py:_evaluate_operation", "effectful/ops/syntax.py:defdata"]}
{"id": "C17", "title": "fvsof computes the free variables", "statement": "`fvsof(t)` is the set of operations occurring free in `t`: each operation applied somewhere in t outside the scope of a binder for it.", "quantifier": "all terms and containers of terms", "why_tests_cant": "The algorithm mutates one set during traversal, so the answer depends on traversal order and on which variables are bound elsewhere.", "anchors": ["effectful/ops/semantics.py:fvsof"]}
{"id": "C18", "title": "Calling a deffn term is beta reduction", "statement": "`deffn(body, x1..xn, **kw)(a1..an, **kw')` evaluates `body` with each xi replaced by ai and each keyword variable by its keyword argument; no bound variable remains free in the result; calls with the wrong number of arguments are rejected.", "quantifier": "all bodies, arities, arguments", "why_tests_cant": "All terms and arities.", "anchors": ["effectful/ops/syntax.py:deffn", "effectful/ops/syntax.py:_CallableTerm.__call__"]}
{"id": "C19", "title": "Evaluating with no handlers is the identity up to renaming", "statement": "For a term all of whose operations have no default rule, `evaluate(t)` with no handlers in force is alpha-equivalent to `t`, and has the same free variables.", "quantifier": "all such terms", "why_tests_cant": "All term shapes.", "anchors": ["effectful/ops/semantics.py:evaluate", "effectful/ops/syntax.py:defdata"]}
{"id": "C20", "title": "evaluate is a homomorphism applied bottom-up, left to right", "statement": "`evaluate(op(a1..an, k=b))` calls `op` on the evaluated arguments, positional arguments left to right first, keyword arguments after; containers are rebuilt with evaluated elements and otherwise unchanged.", "quantifier": "all terms and nested containers, all interpretations with effects", "why_tests_cant": "Order of effects over all shapes.", "anchors": ["effectful/ops/semantics.py:_evaluate_term", "effectful/ops/semantics.py:_evaluate_mapping", "effectful/ops/semantics.py:_evaluate_sequence", "effectful/ops/semantics.py:_evaluate_tuple"]}
{"id": "C21", "title": "Scope inference keeps declared binding and adds a common root", "statement": "`infer_annotations` gives every parameter and the result a non-empty scope containing a common root scope, keeps user scopes, and after it the binding relation (which parameters bind in which) is: p's variables are bound in q iff scope(p) is included in scope(q) and not included in the scope of the result.", "quantifier": "all signatures", "why_tests_cant": "All signatures.", "anchors": ["effectful/ops/syntax.py:Scoped.infer_annotations", "effectful/ops/syntax.py:Scoped.analyze"]}
{"id": "C22", "title": "syntactic_eq is an equivalence relation", "statement": "`syntactic_eq` is reflexive, symmetric and transitive, and equal values have the same operations, arguments (in order) and keyword arguments (in any order).", "quantifier": "all values built from atoms, strings, sequences, mappings, named tuples, dataclasses and terms", "why_tests_cant": "Symmetry and transitivity quantify over all pairs and triples of values of mixed container types.", "anchors": ["effectful/ops/syntax.py:syntactic_eq"]}
{"id": "C23", "title": "syntactic_eq never runs operations", "statement": "Comparing values with `syntactic_eq` invokes no operation, whatever handlers are installed.", "quantifier": "all pairs of values and interpretations", "why_tests_cant": "All pairs.", "anchors": ["effectful/ops/syntax.py:syntactic_eq", "effectful/ops/syntax.py:_NumberTerm.__eq__"]}
{"id": "C24", "title": "ObjectInterpretation follows method resolution order", "statement": "For a class hierarchy of `ObjectInterpretation`s, the method that implements an operation on an instance is the one from the first class in the method resolution order that implements the operation.", "quantifier": "all class hierarchies, including multiple inheritance", "why_tests_cant": "All hierarchies.", "anchors": ["effectful/ops/syntax.py:ObjectInterpretation.__init_subclass__", "effectful/ops/syntax.py:_ImplementedOperation"]}
{"id": "C25", "title": "Printed operation names are unique within a term", "statement": "`str(t)` uses the same name for two occurrences of an operation iff they are the same operation object.", "quantifier": "all terms, all operation names", "why_tests_cant": "Operation names may themselves contain `!` and digits.", "anchors": ["effectful/ops/types.py:Term.__str__"]}
{"id": "C26", "title": "Unification is sound", "statement": "When `unify(typ, subtyp)` returns a substitution, `substitute(typ, subst)` accepts subtyp (equal up to union/subclass), and previously bound variables keep their bindings; `substitute` terminates on it.", "quantifier": "all types of the modelled fragment, all prior substitutions", "why_tests_cant": "All pairs of types.", "anchors": ["effectful/internals/unification.py:unify", "effectful/internals/unification.py:substitute", "effectful/internals/unification.py:_unify_typevar"]}
{"id": "C27", "title": "substitute removes exactly the substituted variables", "statement": "`substitute(t, s)` leaves variables outside s alone; the free variables of the result are exactly the unbound variables reached from t through the bindings of s; without unions the result is t with every variable resolved, part by part; it returns for every acyclic s and for no t with a variable on a cycle.", "quantifier": "all types and substitutions", "why_tests_cant": "All types.", "anchors": ["effectful/internals/unification.py:substitute", "effectful/internals/unification.py:freetypevars"]}
{"id": "C28", "title": "Product of interpretations projects to each component", "statement": "Under `productN({p: i, q: j})`, the p-component of evaluating a term is what evaluating it under i alone gives and the q-component is what j alone gives; the components do not interfere.", "quantifier": "all component interpretations with pure handlers and all terms", "why_tests_cant": "All interpretations and terms.", "anchors": ["effectful/internals/product_n.py:productN"]}
{"id": "C29", "title": "Lazy components run at most once", "statement": "A component of a product result is computed at most once if it succeeds, whatever the order and number of requests, and not at all if not requested; a failing computation is retried on the next request.", "quantifier": "all sequences of requests", "why_tests_cant": "All request histories.", "anchors": ["effectful/internals/product_n.py:CallByNeed"]}
{"id": "C30", "title": "IndexSet union laws", "statement": "`union` of IndexSets is associative, commutative, idempotent and absorbing, its keys are the union of keys, each with the union of the index sets, and no key maps to an empty set; n-ary union agrees with iterated binary union.", "quantifier": "all IndexSets, any number of operands", "why_tests_cant": "All sets.", "anchors": ["effectful/handlers/indexed.py:union", "effectful/handlers/indexed.py:IndexSet"]}
{"id": "C31", "title": "Indexing desugaring preserves meaning", "statement": "`_desugar_tensor_index(shape, key)` returns a reshape target with the same number of elements and a key of the same length with no None/Ellipsis, such that indexing the reshaped array with the new key equals indexing the original with the original key.", "quantifier": "all shapes, all keys mixing None, Ellipsis, slices, integers and named indices", "why_tests_cant": "All ranks and key combinations.", "anchors": ["effectful/internals/tensor_utils.py:_desugar_tensor_index"]}
{"id": "C32", "title": "bind_dims inverts unbind_dims and permutes axes correctly", "statement": "`bind_dims(unbind_dims(t, *names), *names)` is `t`; in general element access on `bind_dims(t[idx], *names)` at (i1..ik, rest) is the element of t with each named index replaced by its position.", "quantifier": "all arrays, all ranks, all orders of distinct names", "why_tests_cant": "All ranks and permutations.", "anchors": ["effectful/handlers/torch.py:_bind_dims_tensor", "effectful/handlers/torch.py:unbind_dims", "effectful/handlers/jax/_terms.py:_bind_dims_array"]}
{"id": "C33", "title": "sizesof detects conflicting dimensions", "statement": "`sizesof` returns for each named index the size of every dimension it indexes, and raises if one named index is used for two dimensions of different size.", "quantifier": "all indexed expressions", "why_tests_cant": "All expressions.", "anchors": ["effectful/handlers/torch.py:sizesof", "effectful/handlers/jax/_handlers.py:sizesof"]}
{"id": "C34", "title": "cond_n selects the value of the case", "statement": "`cond_n(values, case)` returns the value whose index set contains `case`.", "quantifier": "all families of index sets and all case values", "why_tests_cant": "All families, including overlapping or non-covering ones.", "anchors": ["effectful/handlers/indexed.py:cond_n", "effectful/handlers/indexed.py:cond"]}
{"id": "C35", "title": "Content blocks linearise to the JSON encoding", "statement": "Concatenating the text of the blocks produced by `to_content_blocks(v)`, with each non-text block rendered as the JSON of its value, gives exactly `json.dumps(v)`; no two text blocks are adjacent.", "quantifier": "all JSON values with blocks anywhere inside", "why_tests_cant": "All nesting shapes.", "anchors": ["effectful/handlers/llm/encoding.py:to_content_blocks"]}
{"id": "C36", "title": "Tuple encoding round trips", "statement": "Encoding a fixed-length tuple and decoding the result gives the same tuple; malformed encodings are rejected.", "quantifier": "all tuples over encodable element types; all decoder inputs", "why_tests_cant": "All inputs.", "anchors": ["effectful/handlers/llm/encoding.py:_pydantic_type_tuple"]}
{"id": "C37", "title": "Message history is transactional per top-level template call", "statement": "An agent's stored history after a template call is the history before plus exactly the messages of the successful call (system first, once); if the call fails by exception the stored history is unchanged; nested calls made during the call do not write to the stored history.", "quantifier": "all call outcomes and all sequences of model responses and tool results", "why_tests_cant": "All conversation histories and failure points.", "anchors": ["effectful/handlers/llm/completions.py:LiteLLMProvider._call", "effectful/handlers/llm/completions.py:append_message"]}
{"id": "C38", "title": "Every tool call of a completed conversation is answered", "statement": "When a template call returns, every assistant message with tool calls in the history is followed by one tool message per tool call, in order, before the next assistant message.", "quantifier": "all sequences of model responses and tool outcomes", "why_tests_cant": "All conversations.", "anchors": ["effectful/handlers/llm/completions.py:LiteLLMProvider._call", "effectful/handlers/llm/completions.py:call_tool", "effectful/handlers/llm/completions.py:call_assistant"]}
{"id": "C39", "title": "Retries do not leak malformed messages", "statement": "With the retry handler, the history after a successful assistant call is the previous history plus the one successful assistant message; at most `stop` attempts are made; if all fail the last error is raised and the history is unchanged.", "quantifier": "all sequences of attempt outcomes", "why_tests_cant": "All failure sequences.", "anchors": ["effectful/handlers/llm/completions.py:RetryLLMHandler"]}
{"id": "C40", "title": "Tool collection has no duplicates and no losses", "statement": "`collect_tools(env)` offers each distinct tool visible in the environment under exactly one of its names, which is the greatest name in the sort order.", "quantifier": "all environments", "why_tests_cant": "All aliasing patterns.", "anchors": ["effectful/handlers/llm/completions.py:collect_tools"]}
{"id": "C41", "title": "Type-check errors are attributed to the checked region only", "statement": "Checker output lines are attributed to the snippet iff their line number falls in the snippet's region; lines outside are ignored and none inside is lost.", "quantifier": "all reports and regions", "why_tests_cant": "All reports.", "anchors": ["effectful/handlers/llm/evaluation.py:_region_errors"]}
{"id": "C42", "title": "REPL state persists and output is per call", "statement": "Successive `exec_code` calls share variables; each call returns exactly the output produced by that call; the template's own environment is not overwritten.", "quantifier": "all sequences of snippets (succeeding or raising)", "why_tests_cant": "All histories.", "anchors": ["effectful/handlers/llm/evaluation.py:ReplSession"]}
{"id": "C43", "title": "Restricted exec copies back bindings faithfully", "statement": "After executing code under the restricted provider, the caller's environment has exactly the bindings the code made or changed; other entries are untouched.", "quantifier": "all environments and all code effects", "why_tests_cant": "All effects, including deletions and rebinding to identical values.", "anchors": ["effectful/handlers/llm/evaluation.py:RestrictedEvalProvider.exec"]}
{"id": "C44", "title": "User prompt formatting keeps text order", "statement": "The user message built from a template is the template's literal text with each field replaced by its encoding, in order; adjacent text is merged; image blocks stay in place.", "quantifier": "all templates and values", "why_tests_cant": "All templates.", "anchors": ["effectful/handlers/llm/completions.py:call_user"]}
{"id": "C45", "title": "trace agrees with the function it traces", "statement": "For a function whose body only applies operations to its arguments, `trace(f)(args)` equals evaluating `f(args)`.", "quantifier": "all such functions and arguments", "why_tests_cant": "All functions.", "anchors": ["effectful/ops/syntax.py:trace"]}
{"id": "C46", "title": "Partial evaluation of named arrays preserves their value", "statement": "`_partial_eval` of an array indexed by names, and indexing with a mix of names and other elements, give a term whose value is, for every choice of positions for the names, the value of the original indexing expression by NumPy's rules.", "quantifier": "all arrays, ranks, keys and positions", "why_tests_cant": "All ranks, keys and positions of the names.", "anchors": ["effectful/handlers/torch.py:_partial_eval", "effectful/handlers/torch.py:torch_getitem", "effectful/handlers/jax/_handlers.py:_partial_eval"]}
{"id": "C47", "title": "argsof gives the current call's arguments", "statement": "In a handler of a product, `argsof(q)` returns the positional and keyword arguments of the operation call being interpreted, as the analysis q sees them.", "quantifier": "all components, expressions and prompts", "why_tests_cant": "All nestings of calls and combinations of handlers by name and by apply.", "anchors": ["effectful/internals/product_n.py:argsof", "effectful/internals/product_n.py:productN"]}
{"id": "C48", "title": "Requests never leave tool calls unanswered", "statement": "In every list of messages sent to the model, each assistant message with tool calls is followed at once by one tool message per call, in order.", "quantifier": "all sequences of responses and tool outcomes, with and without the retry handler, nested calls included", "why_tests_cant": "The shape of every request over all sequences of malformed and good responses.", "anchors": ["effectful/handlers/llm/completions.py:LiteLLMProvider._call", "effectful/handlers/llm/completions.py:RetryLLMHandler._before_sleep", "effectful/handlers/llm/completions.py:call_assistant"]}
{"id": "C49", "title": "A template is not its own tool unless marked recursive", "statement": "A template without the `IsRecursive` annotation is never offered to the model as one of its own tools, neither by `Template.tools` nor when it is called.", "quantifier": "all environments, including methods of agents", "why_tests_cant": "All environments and ways a template can be reached from its own scope.", "anchors": ["effectful/handlers/llm/template.py:Template.tools", "effectful/handlers/llm/completions.py:LiteLLMProvider._call", "effectful/handlers/llm/completions.py:collect_tools"]}
{"id": "C50", "title": "LexicalReaders offers every other readable variable", "statement": "With `LexicalReaders`, `collect_tools` offers the tools as before and a reader for each other variable that is an identifier and has an encoding; values without encoding are skipped, and nothing raises.", "quantifier": "all environments", "why_tests_cant": "All environments, including tools bound to several variables.", "anchors": ["effectful/handlers/llm/completions.py:LexicalReaders", "effectful/handlers/llm/completions.py:collect_tools"]}
{"id": "C51", "title": "prior_snippets are the snippets that ran without error", "statement": "`ReplSession.prior_snippets` holds the sources of the snippets that executed without error, in order; they are the context later snippets are type-checked in.", "quantifier": "all sequences of snippets, succeeding or raising", "why_tests_cant": "All interleavings of succeeding and failing snippets.", "anchors": ["effectful/handlers/llm/evaluation.py:ReplSession.prior_snippets", "effectful/handlers/llm/evaluation.py:ReplSession.exec_code"]}
{"id": "C52", "title": "The checked region is exactly the spliced code", "statement": "The line span returned by `splice_into_source` and `_splice_repl` contains every line of the generated code (the current snippet), and no line of the template's header, of earlier snippets or of the rest of the module.", "quantifier": "all modules, nestings of the template in it, generated bodies and numbers of earlier snippets", "why_tests_cant": "All shapes of modules and bodies; index in walk order must survive the unparsing.", "anchors": ["effectful/handlers/llm/evaluation.py:splice_into_source", "effectful/handlers/llm/evaluation.py:_splice_repl", "effectful/handlers/llm/evaluation.py:_find_def_at_lineno", "effectful/handlers/llm/evaluation.py:_def_nodes"]}
{"id": "C53", "title": "Unification finds a substitution when there is one", "statement": "`unify(typ, subtyp)` succeeds whenever some substitution of typ's variables makes it accept subtyp; in particular a pattern unifies with each of its instances, giving that instance. The outcome does not depend on the order of arguments or on which TypeVar a class statement used.", "quantifier": "all patterns, all instances, all compatible prior substitutions", "why_tests_cant": "All pairs of types; tests try a few shapes.", "anchors": ["effectful/internals/unification.py:unify", "effectful/internals/unification.py:_unify_typevar", "effectful/internals/unification.py:_unify_union", "effectful/internals/unification.py:canonicalize"]}
{"id": "C54", "title": "canonicalize returns a canonical type", "statement": "`canonicalize` returns for every class table whose classes mention only earlier ones, is idempotent (so that `unify`, which calls itself until both types are canonical, gets there), and does not introduce free type variables.", "quantifier": "all class hierarchies and type expressions of the modelled fragment", "why_tests_cant": "All hierarchies and types.", "anchors": ["effectful/internals/unification.py:canonicalize", "effectful/internals/unification.py:unify"]}
{"id": "C55", "title": "Freshening renames the variables and nothing else", "statement": "`_freshen(t)` has as free variables exactly the new ones, one for each variable of t, and is otherwise t.", "quantifier": "all types", "why_tests_cant": "All types.", "anchors": ["effectful/internals/unification.py:_freshen", "effectful/internals/unification.py:substitute"]}
{"id": "C56", "title": "Restricted code always runs behind the guards", "statement": "Under the restricted provider, code starts with the provider's guarded builtins, attribute access, iteration and printing, whatever the caller's environment or earlier snippets of the session bind to those names; and the caller's own `__builtins__` entry is never changed.", "quantifier": "all environments, all snippets, all endings", "why_tests_cant": "All environments and all sequences of snippets, including ones that rebind or delete the guards.", "anchors": ["effectful/handlers/llm/evaluation.py:RestrictedEvalProvider.exec", "effectful/handlers/llm/evaluation.py:ReplSession.exec_code"]}
{"id": "C57", "title": "A term evaluates to an instance of its typeof", "statement": "`typeof(term)` is a class of which every value the term can evaluate to is an instance, if the handlers installed return what the operations' signatures promise.", "quantifier": "all terms, all signatures, all handlers respecting them", "why_tests_cant": "All generic signatures, all nestings of operations, tuples and collections, all handlers.", "anchors": ["effectful/ops/semantics.py:typeof", "effectful/ops/semantics.py:_simple_type", "effectful/ops/types.py:Operation.__type_rule__", "effectful/internals/unification.py:nested_type", "effectful/internals/unification.py:_unify_signature"]}
{"id": "C58", "title": "Operators on number terms mean operators on numbers", "statement": "Arithmetic, comparisons and conditionals written with python's operators over calls of number operations build terms that, evaluated once the operations are handled by numbers, give what the same source gives on these numbers; handling them in stages gives the same; nothing raises earlier that would not raise anyway, and no branch of a conditional is picked on an unknown number.", "quantifier": "all expressions, all numbers, all orders of handling", "why_tests_cant": "All expressions over twelve binary, four comparison and ten unary operators, reflected and not, all mixtures of number types.", "anchors": ["effectful/ops/syntax.py:_NumberTerm", "effectful/ops/syntax.py:_NumberTerm.__radd__", "effectful/ops/syntax.py:_NumberTerm.__lt__", "effectful/ops/syntax.py:_NumberTerm.__eq__", "effectful/ops/syntax.py:_NumberTerm.__bool__", "effectful/ops/semantics.py:evaluate"]}
{"id": "C59", "title": "A distribution with named parameters is a family of distributions", "statement": "For a NumPyro distribution whose parameters are arrays indexed by named dimensions, log_prob(value), mean, variance, entropy, enumerate_support, batch_shape and event_shape at each position of the names equal those of the plain distribution built from the parameters (and the value) at that position, and the results carry exactly the names of the parameters and the value.", "quantifier": "For all distribution classes, parameters with any named dimensions of any sizes and shapes, values with any named dimensions, and all orders in which Python's sets list names.", "why_tests_cant": "The claim is about all combinations of names, shapes and broadcasting; the tests use a few fixed distributions and shapes, mostly with all parameters of equal rank.", "anchors": ["effectful/handlers/numpyro.py:_bind_dims_distribution", "effectful/handlers/numpyro.py:_broadcast_to_named", "effectful/handlers/numpyro.py:_DistributionTerm"]}
{"id": "C60", "title": "Expanding a distribution gives the shape asked for and keeps its parameters", "statement": "For a NumPyro distribution term d, d.expand(s).batch_shape is s for every s that the batch shape broadcasts to, the parameters at each position of s are those of d there, the named dimensions stay, and other shapes are an error.", "quantifier": "For all distribution classes, parameters with any named dimensions and any batch shapes, and all target shapes.", "why_tests_cant": "Broadcasting of batch shapes against event shapes is a claim about all shapes; a test fixes one.", "anchors": ["effectful/handlers/numpyro.py:expand_to_batch_shape", "effectful/handlers/numpyro.py:_DistributionTerm"]}
{"id": "C61", "title": "A Pyro distribution embedded as a term is rebuilt with the same parameters", "statement": "Evaluating a Pyro distribution gives a term whose construction gives back a distribution of the same class with the same values of all the parameters that determine it.", "quantifier": "For all registered distribution classes, all parametrisations and all parameter values.", "why_tests_cant": "A wrong or missing parameter shows only for the class, parametrisation and values concerned; tests sample a few classes.", "anchors": ["effectful/handlers/pyro.py:_embed_loc_scale", "effectful/handlers/pyro.py:_embed_wishart", "effectful/handlers/pyro.py:_embed_multivariate_normal"]}
{"id": "C62", "title": "Under PyroShim names become plates and come back on the samples", "statement": "At a Pyro sample statement whose distribution or observation has named dimensions, what Pyro sees has no names: each name is a plate whose axis and size are those of the name in the positional distribution. The value returned has the names of distribution and observation again, and at each position its elements are those of the sample, or of the observation, at that position.", "quantifier": "For all distributions, observations, names, sizes, sample shapes and batch and event shapes.", "why_tests_cant": "Positions counted from the right, over two naming passes, are right or wrong depending on the ranks involved; tests have a few ranks.", "anchors": ["effectful/handlers/pyro.py:Naming", "effectful/handlers/pyro.py:PyroShim", "effectful/handlers/pyro.py:PyroShim._broadcast_to_named"]}
{"id": "C63", "title": "Operations defined as methods belong to their objects", "statement": "An operation defined in a class body gives every instance an operation of its own: a.m is the same operation each time, different from b.m and from C.m; a.m(x) runs the handlers of a.m, then those of C.m with a as first argument, then the body found along the method resolution order, with super() going to the next class; unhandled it is a term of a.m, which evaluates under handlers of a.m or C.m. Class methods likewise belong to the class they are called on.", "quantifier": "For all class hierarchies, objects, copies, handlers, programs and orders of attribute accesses.", "why_tests_cant": "Instance operations are made on first access and kept in __dict__ under a derived name, so what a call does may depend on all earlier accesses; a test has one order and one hierarchy.", "anchors": ["effectful/ops/types.py:Operation.__get__", "effectful/ops/types.py:Operation.__set_name__", "effectful/ops/types.py:_ClassMethodOpDescriptor.__get__"]}
{"id": "C64", "title": "Indexing with index tensors or named dimensions is PyTorch's indexing", "statement": "torch_getitem(x, key) is x[key] by PyTorch's rules, whatever mixture of integers, slices, None, an ellipsis, lists and index tensors the key is; in particular x[a(), 1:3] has the value of x[i, 1:3] for a at i.", "quantifier": "For all tensors, keys and index tensors of any shapes.", "why_tests_cant": "Broadcasting and the placing of axes depend on the kinds and positions of all elements of the key; tests have a list of some twenty keys, with whole-axis slices beside tensors only.", "anchors": ["effectful/handlers/torch.py:torch_getitem", "effectful/handlers/torch.py:_getitem_ellipsis_and_none"]}
{"id": "C65", "title": "Array operations act at each position of the named dimensions", "statement": "Any torch or jax function applied to arrays with named dimensions gives, at each position of the names, the function of the arrays at that position; so does any program of such functions and indexing, whether it is evaluated at once or stays a term until its free variables get values. It is evaluated as soon as all its names have sizes.", "quantifier": "For all library functions whose result shapes depend on the shapes of their arguments, all programs, names, sizes and positions.", "why_tests_cant": "Tests compare a few functions on one or two names; the claim is about every program and every mixture of named, plain and unevaluated arguments.", "anchors": ["effectful/handlers/torch.py:_register_torch_op", "effectful/handlers/torch.py:_partial_eval", "effectful/handlers/jax/_handlers.py:_register_jax_op", "effectful/handlers/jax/_handlers.py:_partial_eval"]}
{"id": "C66", "title": "gather selects the worlds of an index set, stack puts worlds together", "statement": "gather(v, s) is the value v on the worlds s: it is v at the i-th index of s for each dimension of s in v's support, ignores other names, leaves other dimensions alone, and gathering all of indices_of(v) gives v back. As documented, a strict subset binds the variable, so that it is no longer in indices_of of the result, and the result combines with other values of the same variable. stack(vs, name) is vs[i] at position i of name.", "quantifier": "For all values, named dimensions, sizes, index sets and positions.", "why_tests_cant": "The test for gather takes one index per dimension and looks at position 0 of the result; whether the documented laws hold for all index sets, several indices, repeated gathering and mixed names is not tested.", "anchors": ["effectful/handlers/indexed.py:gather", "effectful/handlers/indexed.py:indices_of", "effectful/handlers/indexed.py:stack", "effectful/handlers/indexed.py:name_to_sym"]}
{"id": "C67", "title": "Transformed functions act at each position of their names", "statement": "jit, vmap, jacfwd, jacrev, grad, hessian and jvp of a function whose arguments and results have named dimensions give, at each position of the names, the library's transformation of the function at that position. jit(f) returns what f returns, whatever it was called with before. Keyword arguments, out_dims and argnums are passed on.", "quantifier": "For all functions whose errors, names and shapes depend on the shapes of the arguments (all programs of array operations), all derivatives, arguments, names, sizes, positions and histories of calls.", "why_tests_cant": "Tests transform one or two functions, with one name, called once; the wrapper keeps the names of the results of the last run, so whether they are the right ones depends on earlier calls.", "anchors": ["effectful/handlers/torch.py:_indexed_func_wrapper", "effectful/handlers/torch.py:vmap", "effectful/handlers/torch.py:grad", "effectful/handlers/torch.py:jacfwd", "effectful/handlers/torch.py:hessian", "effectful/handlers/torch.py:jvp", "effectful/handlers/jax/_handlers.py:jit", "effectful/handlers/jax/_handlers.py:_indexed_func_wrapper"]}
{"id": "C68", "title": "Terms of dataclasses stand for their objects", "statement": "If an operation returns a dataclass, its unhandled call is an instance of that class whose fields and methods can be used: a program run on such terms and evaluated later, under a handler, gives what it gives run on the handler's objects. This does not depend on which other terms were made before.", "quantifier": "For all classes, fields, methods, programs, handlers' objects and histories of calls.", "why_tests_cant": "Tests make one term of one class; term classes are registered on first use in a global table that is searched along base classes, so behaviour depends on the order of all calls in the process.", "anchors": ["effectful/ops/syntax.py:_construct_dataclass_term", "effectful/ops/syntax.py:_DataclassTermMeta", "effectful/ops/syntax.py:defdata", "effectful/ops/semantics.py:_evaluate_object"]}
{"id": "C69", "title": "A tool call calls the advertised tool with the decoded arguments, and round-trips", "statement": "The name under which a tool is advertised resolves to that tool. A tool call that follows the advertised schema is decoded, the tool receives for each parameter the value decoded from what the model sent for it or else its default, and its result is answered in a form that decodes to the result. Encoding a decoded call and decoding it again gives the same call.", "quantifier": "For all contexts, tools, signatures (all kinds of parameters), annotations of scalars, complex numbers, tuples and lists, argument objects and results.", "why_tests_cant": "Tests round-trip five calls of four tools with positional-or-keyword parameters stored under their own names; names, kinds of parameters, order, defaults and runtime types of nested values vary without bound.", "anchors": ["effectful/handlers/llm/encoding.py:_serialize_tool", "effectful/handlers/llm/encoding.py:_validate_tool", "effectful/handlers/llm/encoding.py:_validate_tool_call", "effectful/handlers/llm/encoding.py:_serialize_tool_call", "effectful/handlers/llm/completions.py:call_tool", "effectful/internals/unification.py:nested_type"]}
{"id": "C70", "title": "Inlining references keeps the meaning of a schema", "statement": "The schema with its references inlined allows exactly the values that the schema with its definitions allows, has no references left, and every schema can be inlined.", "quantifier": "For all schemas over type, enum, const, properties, required, additionalProperties, items, anyOf, allOf and references, with any nesting of definitions, and all JSON values.", "why_tests_cant": "Tests look for $ref in the schemas of a few types; definitions that refer to definitions, recursive types, keywords beside references and properties named like keywords form an unbounded family.", "anchors": ["effectful/handlers/llm/encoding.py:_inline_refs"]}
{"id": "C71", "title": "A synthesized function can be called as its type says, and comes back doing the same", "statement": "Code is decoded for `Callable[[A1, ..., An], R]` exactly if it ends in a function that takes n arguments; calling the result binds each parameter to its argument. A callable that is encoded and decoded in a context with its variables gives the same results and errors at every call.", "quantifier": "For all module codes, signatures (all kinds of parameters), contexts, callables (functions with closures, lambdas, methods, classes, built-ins) and arguments, recursion included.", "why_tests_cant": "Tests round-trip a handful of module-level functions; the check counts parameters twice, in the syntax and at run time, and the family of signatures, decorators, callables and contexts is unbounded.", "anchors": ["effectful/handlers/llm/encoding.py:_pydantic_callable", "effectful/handlers/llm/encoding.py:_validate_signature_ast", "effectful/handlers/llm/encoding.py:_validate_signature_callable"]}
{"id": "C72", "title": "unbind_dims of a distribution names its leading batch dimensions, and bind_dims undoes it", "statement": "`unbind_dims(d, *names)` has, at each position of the names, the batch shape, mean, entropy and log density that `d` has at that position of its leading batch dimensions. `bind_dims` is its inverse in both orders, and naming dimensions in two steps is naming them in one.", "quantifier": "For all distribution classes, parameters (numbers, arrays with and without names, of any shapes), numbers of names, positions of the names and values; for NumPyro and Pyro.", "why_tests_cant": "Tests check that a table of distributions survives unbind_dims and bind_dims with all batch dimensions and compare samples' shapes; which axes of which parameters are batch axes depends on broadcasting, event axes and names already there, an unbounded family.", "anchors": ["effectful/handlers/numpyro.py:_unbind_distribution", "effectful/handlers/numpyro.py:_bind_dims_distribution", "effectful/handlers/pyro.py:_unbind_dims_distribution", "effectful/handlers/pyro.py:_bind_dims_distribution"]}
{"id": "C73", "title": "The example normaliser computes the values of programs and decides their equality", "statement": "Under handler(eager_mixed) of docs/source/lambda_.py, a program made of integers, integer variables, additions, Let, Lam and App evaluates to an end; the result has the value of the program, whatever the values of its variables and wherever the operations are in memory; two integer programs give the same term exactly when they are equal for all values of their variables.", "quantifier": "all programs of integers and functions of integers (any number of parameters), all values of variables, all assignments of ids to operations, all numbers of operations created before; for the failures, all ids too", "why_tests_cant": "The tests evaluate some twenty sums of two variables, under the ids the interpreter happened to give. Rules for sorting, associating and commuting call each other in an order that depends on ids, and run while the handlers of variables are installed; that all sums end in one form, and that they end at all, is a statement on all expressions and all orders.", "anchors": ["docs/source/lambda_.py:9-143", "effectful/ops/syntax.py:488-547", "effectful/ops/semantics.py:106-181", "effectful/ops/semantics.py:286-314"]}
{"id": "C74", "title": "Operators on free arrays mean the operators on arrays", "statement": "An expression of Python's operators on free arrays, arrays and numbers, built as a term and evaluated with arrays for its variables, gives what Python gives on those arrays, or both fail; giving arrays to some variables first and to the others later makes no difference; an `if` on a free array never chooses silently.", "quantifier": "For all expressions (13 binary operators, 6 comparisons, 4 unary operators, conditionals), any nesting and placing of variables, arrays and numbers, any behaviour of the libraries' functions and any arrays; for JAX and PyTorch.", "why_tests_cant": "Tests compare a dozen expressions on a few positive arrays; dispatch depends on what stands on either side of each operator, on reflected methods and on the library, and the disagreements are in signs and branches the test data avoid.", "anchors": ["effectful/handlers/jax/_terms.py:_ArrayTerm", "effectful/handlers/torch.py:_TensorTerm", "effectful/handlers/torch.py:_torch_function", "effectful/handlers/jax/_handlers.py:_register_jax_op", "effectful/handlers/torch.py:_register_torch_op"]}
{"id": "C75", "title": "to_event of a distribution with named dimensions keeps the names out of the event", "statement": "For a NumPyro distribution whose parameters have named dimensions, d.to_event(n) is at every position of the names NumPyro's to_event(n) of the distribution there: batch_shape and event_shape are those, log_prob at a position is the density there summed over the n event axes only, and mean is the mean there. unbind_dims and bind_dims of such a distribution name and restore leading batch axes, as for other distributions. to_event() without a number takes all batch axes but no names; asking for more axes than there are is an error; expand changes the batch shape.", "quantifier": "All distribution classes, numbers of named dimensions and batch axes, nestings of to_event, values (with or without names, with sample axes), and orders of sets.", "why_tests_cant": "Tests check one shape for one distribution; named dimensions are stored as leading batch axes of the same object that to_event consumes, and whether the count can reach them depends on both numbers.", "anchors": ["effectful/handlers/numpyro.py:_DistributionMethodTerm", "effectful/handlers/numpyro.py:_DistributionTerm.to_event", "effectful/handlers/numpyro.py:_DistributionTerm.log_prob", "effectful/handlers/numpyro.py:_DistributionTerm.expand", "effectful/handlers/numpyro.py:_unbind_distribution", "effectful/handlers/numpyro.py:_bind_dims_distribution"]}
{"id": "C76", "title": "The Python session of a template call belongs to that call", "statement": "With PythonRepl installed, each template call has one Python session: it starts with what the call sees, snippets share it across requests, names it binds are visible to the rest of the call (and deleted ones are not), nested calls have their own, and when the call ends nothing is left: module and function namespaces and the contexts of all templates are as if no snippet had run. Installing it without running code changes nothing, and neither does reading template.tools. The order in which PythonRepl and the provider are installed does not matter.", "quantifier": "All scripts of requests, snippets, nested calls to any depth, tool listings, and names bound by other code in between; all templates, contexts and arguments.", "why_tests_cant": "Namespaces are dictionaries shared through ChainMaps that are modified in place; a test checks one sequence of snippets in one call, and leaks show only in a later call or after a rebinding elsewhere.", "anchors": ["effectful/handlers/llm/completions.py:PythonRepl", "effectful/handlers/llm/evaluation.py:ReplSession.__init__", "effectful/handlers/llm/evaluation.py:_repl_session", "effectful/handlers/llm/template.py:Template.tools", "effectful/handlers/llm/completions.py:LiteLLMProvider._call"]}
{"id": "C77", "title": "Programs over semi-ring dictionaries compute what they mean", "statement": "Evaluating a program of Dict, Record, Field, add, Let and Sum under the eager interpretation of the docs gives its meaning: Sum adds up, over the entries, what the body means for each; what remains a term (because variables are unknown) still means the same. Addition of dictionaries is place by place, and sums do not depend on the order in which dictionaries were made. A program with a meaning and no unknown variables is computed completely. Installing the fusion rule over it changes no result, and fuses two sums in a row into one.", "quantifier": "All programs, nested in any way, all dictionaries of numbers, strings and nested dictionaries, all values of unknown variables.", "why_tests_cant": "The rule fires or does not on the shape of terms, bodies are evaluated with unknown keys first and for each entry later, and the tests' assertion on the fused term also holds of the term that was not fused.", "anchors": ["docs/source/semi_ring.py:SemiRingDict.__add__", "docs/source/semi_ring.py:eager_sum", "docs/source/semi_ring.py:eager_let", "docs/source/semi_ring.py:vertical_fusion", "effectful/ops/semantics.py:evaluate"]}
{"id": "C78", "title": "Miniature Pyro: traces, plates, the evidence lower bound and collected parameters", "statement": "Under minipyro's default runner, trace() records exactly the sample and param sites a program goes through: each name's last value, the data as obs, and the distribution expanded by all plates around the site, in any nesting order. elbo(model, guide) is minus the sum of the log densities of the model's samples at the guide's values plus those of the guide, and SVI.step optimises exactly the parameters met, each once. seed(n) fixes the random state of its body.", "quantifier": "for all programs (what they do next may depend on sampled values), plates, data, parameter stores, random states, constraints and densities", "why_tests_cant": "Plates re-issue calls from the innermost handler, replay feeds data to sites by name, block reinterprets calls below other traces; the repository runs one model without plates and never checks a loss.", "anchors": ["docs/source/minipyro.py:Tracer", "docs/source/minipyro.py:Replay", "docs/source/minipyro.py:Plate.do_sample", "docs/source/minipyro.py:block", "docs/source/minipyro.py:seed", "docs/source/minipyro.py:SVI.step", "docs/source/minipyro.py:elbo"]}
{"id": "C79", "title": "Beam search of the docs returns the best complete runs it met", "statement": "beam_search(model, beam_width)(...) returns at most beam_width candidates; each is a complete run of the model with the choices in its trace, its score is the sum of the scores on the way and its result what the model returned; no candidate met during the search scored more than one that was returned. The search ends, and a continuation is resumed with different values.", "quantifier": "for all programs over choose and score, widths, random states and lawful heaps", "why_tests_cant": "The program is run again and again under four handlers with replayed prefixes and an exception as suspension; which candidates survive depends on the random state and on all scores, and there is no test of the example.", "anchors": ["docs/source/beam.py:beam_search", "docs/source/beam.py:BeamCandidate.expand", "docs/source/beam.py:ReplayIntp", "docs/source/beam.py:TraceIntp", "docs/source/beam.py:ChooseOnceIntp"]}
{"id": "C80", "title": "Unification of typed dictionaries is structural subtyping: reads are safe and permitted writes keep the type", "statement": "When unify(P, S) succeeds for a pattern P (a TypedDict, a mapping, a sequence, ... possibly with type variables) and a type S without variables, then under the substitution found every dictionary made as S has all fields that P requires, each with a value of the type that P gives it (fields of P that are NotRequired may be absent), and every write or deletion that P permits on such a dictionary (its mutable fields, its NotRequired mutable fields) leaves a dictionary of S.", "quantifier": "all pairs of types built from classes, lists, sequences, dictionaries, mappings and (generic, derived, nested) typed dictionaries; all values; all writes and deletions", "why_tests_cant": "the types are an infinite set, and soundness speaks about all values of a type and all reads and writes through it; the existing tests list pairs that should or should not unify", "anchors": ["effectful/internals/unification.py:262-299", "effectful/internals/unification.py:383-503", "effectful/internals/unification.py:678-693"]}
{"id": "C81", "title": "The README's rules for addition sum up every expression", "statement": "Under handler(eager_mixed) of the README, evaluate(e) ends for every expression e of integers, additions and other operations; the result has at most one integer constant, in front, followed by the other summands in their order, added from the left; its value is that of e for all values of the operations; expressions with the same summands and the same sum of constants give the same result; evaluating the result again changes nothing; the order in which the three rules are combined does not matter; what the README prints is what one gets.", "quantifier": "all expressions over additions, constants and other operations, with or without default rules that compute; all orders of the rules; all values of the operations", "why_tests_cant": "The rules call addition again, on terms they have just built, so termination and the form of the result are statements about all expressions; the README's example is not run by any test.", "anchors": ["README.rst:60-120", "docs/source/readme_example.py:7-47", "effectful/ops/syntax.py:1161-1173"]}
{"id": "C82", "title": "A template's context is the lexical scope of its definition", "statement": "For a template defined with @Template.define, every name shows in template.__context__ exactly what it means by Python's lexical scope at the definition: the variable of the innermost enclosing function that has it, else the module's global; class bodies do not count; variables of callers are never visible. The prompt is accepted if and only if each of its fields starts with a parameter or a name of that scope, and then every call finds its fields.", "quantifier": "all nestings of functions and classes, all stacks of running calls, all states of the variables at the definition and later, all prompts; Python 3.12 and 3.13", "why_tests_cant": "The context is found by walking the stack of callers and comparing names, so it depends on everything that is running; the tests fix eight stacks.", "anchors": ["effectful/handlers/llm/template.py:Template.define", "effectful/handlers/llm/template.py:Template._validate_prompt", "effectful/handlers/llm/completions.py:663-668", "effectful/handlers/llm/completions.py:508"]}
{"id": "C83", "title": "An agent's template methods continue that agent's own conversation, under its own prompt, as itself", "statement": "Whatever a program does with several agents and plain objects that have template methods (making them, looking methods up on instances or on classes, clearing histories, calling methods that answer or raise, and whose tools call other template methods), each request consists of the system prompt (docstring of the template's module and of the agent's class), all questions answered before by that agent in calls that were not made by a tool, in order and with the answers, whichever of its template methods was asked, and the new question, with the object itself as self; plain objects have no conversation.", "quantifier": "For all classes and docstrings and all programs of such steps, with calls nested to any depth.", "why_tests_cant": "Tests ask one or two agents a few questions; that conversations are never mixed depends on what is kept in instance dictionaries, in class templates and in handlers after any sequence of look-ups, calls and failures.", "anchors": ["effectful/handlers/llm/template.py:233-253", "effectful/handlers/llm/template.py:327-378", "effectful/handlers/llm/completions.py:658-702", "effectful/ops/types.py:459-505"]}
{"id": "C84", "title": "The introduction's rules for addition bring equal sums into one normal form", "statement": "Under the handlers of part 3 of the introduction (add_stack), every sum of integers, variables and other terms, however grouped, evaluates to an end; the result is grouped to the left with at most one integer, leftmost, has the same value for all values of the variables and the same summands, and does not change when evaluated again; two sums that are equal by commutativity, associativity and addition of integers give syntactically equal results (== is True), others do not; and the helper fails(fn) of the same document raises exactly if fn does not raise.", "quantifier": "For all sums of any size, all orders of the addresses of operations, all interpretations of the other operations.", "why_tests_cant": "The document runs three tests; termination of rules that call each other and uniqueness of normal forms are about all sums.", "anchors": ["docs/source/introduction.ipynb", "effectful/ops/syntax.py:584-620", "effectful/ops/semantics.py"]}
{"id": "C85", "title": "The networks of the named-tensor notebook compute the formulas written above them", "statement": "In docs/source/named_tensor_notation.ipynb, reduce(names, t, reducer) reduces exactly the named dimensions of t; and FullConn, RNN, Relu, Softmax, Attention, Unroll, Conv1d, Conv2d, Pool, MaxPool1d, MaxPool2d, Mean, Variance, Standardize, BatchNorm, InstanceNorm and LayerNorm, applied to tensors with named dimensions, return the tensor whose axes and entries are those of the formula in the text, for arguments with any further axes (lifting); softmax is positive with sum one, standardized entries have mean zero; an error is raised only if a window is too long or a block size does not divide.", "quantifier": "For all axes, sizes, entries and further axes of the arguments.", "why_tests_cant": "The notebook prints shapes of a few random tensors; that the entries are those of the formulas for every size and every set of further axes is a universal statement about contraction, renaming and flattening.", "anchors": ["docs/source/named_tensor_notation.ipynb", "effectful/handlers/indexed.py", "effectful/handlers/torch.py"]}
{"id": "C86", "title": "A NumPyro distribution as a term stands for the distribution the library would make", "statement": "Calling one of the distribution operations of effectful.handlers.numpyro, with positional and keyword arguments in any mixture and defaults left out, gives a term that stands for the distribution NumPyro's constructor makes of the same call (or fails as it does), and whose attributes are the arguments; evaluating a NumPyro distribution, or a term with such distributions inside, gives a term without library objects that stands for the same distribution; handlers of a constructor are asked about every distribution of that class.", "quantifier": "For all registered classes, all spellings of a call, all parameters, all depths of distributions within each other, any number of evaluations.", "why_tests_cant": "The table has forty classes, each with a signature, a term class and an embedding that must agree with each other and with the library; tests sample a few classes, positional calls and single distributions.", "anchors": ["effectful/handlers/numpyro.py:_DistributionTerm", "effectful/handlers/numpyro.py:Wishart", "effectful/handlers/numpyro.py:_embed_independent", "effectful/handlers/numpyro.py:MultivariateNormalTerm", "effectful/ops/syntax.py:defdata"]}
{"id": "C87", "title": "Evaluation goes through collections and dataclasses and keeps them", "statement": "evaluate on a value made of Python's collections and dataclasses, to any depth, returns a value of the same types in which every term and operation has been evaluated and nothing else is changed; without handlers, or without terms inside, it returns an equal value; so a free operation accepts any such argument and keeps it. map_structure applies its function at every leaf likewise, and the two agree.", "quantifier": "For all nested values of all sequence, mapping, set and view types of the standard library and all dataclasses, all handlers and all equalities of keys.", "why_tests_cant": "Collections nest without bound and every type has its own constructor; tests use lists, tuples, dictionaries and one dataclass, where calling the type on a generator happens to work.", "anchors": ["effectful/ops/semantics.py:_evaluate_object", "effectful/ops/semantics.py:_evaluate_sequence", "effectful/ops/semantics.py:_evaluate_mapping", "effectful/ops/semantics.py:_evaluate_set_view", "effectful/internals/product_n.py:map_structure", "effectful/ops/syntax.py:defdata"]}
{"id": "C88", "title": "Operation.define makes a fresh operation that does what its argument says", "statement": "Operation.define gives an operation different from all others; of a function, one that does what the function does (or makes a term where it raises NotHandled); of a type, a variable: no parameters, returning the type, a term when called; of an operation, a copy with its name and signature and no default rule; of a built-in function, one that calls it on values, makes a term of terms, and gives the function's value when the terms are evaluated later.", "quantifier": "For all programs of definitions, chains of copies, names, functions and arguments.", "why_tests_cant": "Identity over all programs, and the values of built-in functions on nested arguments now or later, are not a matter of examples; tests use a few functions on numbers.", "anchors": ["effectful/ops/types.py:Operation.define", "effectful/ops/types.py:Operation._define_callable", "effectful/ops/types.py:Operation._define_type", "effectful/ops/types.py:Operation._define_builtinfunctiontype", "effectful/ops/semantics.py:fvsof"]}
{"id": "C89", "title": "Encodable[T] reads exactly the values of T", "statement": "For every type T that a template or tool may mention, Encodable[T] gives an adapter that reads from JSON exactly the values of T that the JSON stands for: images, code and complex numbers in their encodings wherever they occur in T, tuples as objects or arrays having each member, unions by the first type that fits, aliases and new types as what they stand for, and with every constraint of Annotated enforced; a type with terms or operations in it is refused.", "quantifier": "For all types of any depth, all encodings of registered types, all constraints, and all JSON.", "why_tests_cant": "Types nest without bound, and the same leaf in a list, a class, a named tuple or an alias goes through a different rule; tests read each registered type alone, in lists and in tuples.", "anchors": ["effectful/handlers/llm/encoding.py:TypeToPydanticType", "effectful/handlers/llm/encoding.py:_pydantic_type_tuple", "effectful/internals/unification.py:TypeEvaluator.evaluate"]}
{"id": "C90", "title": "A method of a free JAX array is the method of arrays", "statement": "A method called on a free array gives the term that, once arrays are put for its variables, is the value of the same method called on the array with the same arguments: each argument reaches the same parameter of the library's function whether given by position or by keyword, omitted parameters have the same defaults, and a call that arrays refuse is refused.", "quantifier": "For all methods of _ArrayTerm and all lists of positional and keyword arguments.", "why_tests_cant": "Arguments can be spelled in unboundedly many ways and arrays have other parameters in between; tests call each method without arguments or with one axis.", "anchors": ["effectful/handlers/jax/_terms.py:_ArrayTerm", "effectful/handlers/jax/_terms.py:_ArrayTerm.mean", "effectful/handlers/jax/_terms.py:_ArrayTerm.transpose", "effectful/handlers/jax/_terms.py:_IndexUpdateRef.set"]}
{"id": "C91", "title": "vjp of a function of arrays with named dimensions is the vector-Jacobian product over all positions of the names", "statement": "vjp(f, *args) returns f's result and a function that, given a cotangent for each result, returns one gradient for each argument, with the argument's names and shape: at every position of the names, the sum over the results, the positions of their names and their elements of the derivative of that element times the cotangent there. Cotangents are matched to results by name, and the options of torch.func.vjp keep their meaning.", "quantifier": "For all functions made of indexing and library operations, all arguments with any names and shapes, all cotangents.", "why_tests_cant": "The names of arguments, results and cotangents can be in any order and of any sizes, and positions are unboundedly many; the tests use one function and one arrangement of names.", "anchors": ["effectful/handlers/torch.py:vjp"]}
{"id": "C92", "title": "Annotations in the signature of an operation mean what they say", "statement": "The signature of an operation is the one its annotations spell, quoted or not. Scoped[...] takes a type variable or a union of type variables and nothing else. A signature is refused exactly if an annotation has two scopes, a variable stands both in a scope and in a type, or a bound variable is in scope in the result; otherwise the inferred signature keeps names, kinds, defaults, types and other marks, gives every annotation its declared scope joined with one root shared by all, and inferring again changes nothing. IsRecursive on a parameter of a tool is a TypeError, on the result it is kept.", "quantifier": "For all signatures with any parameters of any kinds, annotations nested to any depth, any marks and any quoting.", "why_tests_cant": "Signatures, nestings of annotations and arrangements of scopes are unboundedly many; tests use about a dozen signatures.", "anchors": ["effectful/ops/types.py:Operation._signature", "effectful/ops/syntax.py:Scoped.__class_getitem__", "effectful/ops/syntax.py:Scoped.infer_annotations", "effectful/ops/syntax.py:Scoped._check_no_typevar_overlap", "effectful/ops/syntax.py:Scoped._check_no_boundvars_in_result", "effectful/handlers/llm/template.py:_IsRecursiveAnnotation.infer_annotations"]}
{"id": "C93", "title": "A program over a free iterable means that program over the iterable; a for-expression binds just its variables", "statement": "Taking elements of a free iterable with iter and next builds a term; evaluating it with the iterable given by a handler returns what the program returns on the iterable itself, leaves the same elements in a given one-shot iterator, and raises StopIteration where the program does. defstream(body, streams) binds exactly the keys of streams, in the body and in the streams, so its free variables are those of the body and streams except the keys.", "quantifier": "For all programs with any number of iterables, iterators and elements taken, all collections and one-shot iterators given for the iterables, and all bodies and streams of for-expressions.", "why_tests_cant": "Programs, the order in which elements are taken and used, and the contents of iterables are unboundedly many; the tests build single terms.", "anchors": ["effectful/ops/syntax.py:_IterableTerm.__iter__", "effectful/ops/syntax.py:_IteratorTerm.__next__", "effectful/ops/syntax.py:defstream", "effectful/ops/syntax.py:Scoped.analyze", "effectful/ops/semantics.py:evaluate"]}
{"id": "C94", "title": "An array with named dimensions describes itself as the array at each position of its names", "statement": "shape, size or numel, ndim or dim(), size(d) and len of an array with named dimensions are those of the array at any position of the names; iterating over it yields, for each i, the i-th row at every position. Errors are those arrays raise; methods returning the array itself keep its names.", "quantifier": "For all programs of array operations and indexing, all names, sizes, shapes and positions.", "why_tests_cant": "Shapes, names and positions are unboundedly many; the tests look at a few small shapes.", "anchors": ["effectful/handlers/torch.py:_EagerTensorTerm", "effectful/handlers/jax/_terms.py:_EagerArrayTerm", "effectful/handlers/torch.py:_embed_tensor", "effectful/handlers/jax/_terms.py:_embed_array"]}
{"id": "C95", "title": "The type found for a value is a type the value has", "statement": "nested_type(v), by which arguments of operations are typed and values are offered to and encoded for a model, is a type that v has, however v is nested: items, keys, values and fields have the types listed, functions take what is listed. It fails just on terms, does not depend on the order of items, and items of one type give the collection of that type.", "quantifier": "For all values nested from objects, strings, tuples, named tuples, collections, mappings, functions and operations.", "why_tests_cant": "Nesting is unbounded; the tests look at one or two levels.", "anchors": ["effectful/internals/unification.py:nested_type", "effectful/internals/unification.py:canonicalize", "effectful/ops/types.py:_InterpretationMeta.__instancecheck__"]}
{"id": "C96", "title": "An image comes back from its encoding, and a data URL is read as what it says", "statement": "Encoding an image gives a data URL with the PNG saved for it; decoding that URL opens exactly those bytes. A data URL of an image from a model is read as the bytes it stands for, anything else is refused.", "quantifier": "For all images, byte strings and URLs.", "why_tests_cant": "Byte strings of every length modulo three and all characters matter; tests use one small picture.", "anchors": ["effectful/handlers/llm/encoding.py:_validate_image", "effectful/handlers/llm/encoding.py:_serialize_image", "effectful/handlers/llm/encoding.py:_pydantic_type_image"]}
{"id": "C97", "title": "Code a model writes is kept as written, and what is accepted can stand in a function body", "statement": "A source decoded as code compiles to a code object which encodes to exactly that source at any later time, however many other snippets were decoded; decoding that again gives the same code. Future and star imports, which cannot stand in the template's body where the code is checked, are refused, other code is not refused for its imports.", "quantifier": "For all sources, sequences of further decodings and cache checks, and nesting of statements.", "why_tests_cant": "All line endings, orders of decodings and depths of nesting; tests decode one or two snippets.", "anchors": ["effectful/handlers/llm/encoding.py:_pydantic_type_code", "effectful/handlers/llm/evaluation.py:scan_non_nestable", "effectful/handlers/llm/evaluation.py:UnsafeEvalProvider.parse", "effectful/handlers/llm/evaluation.py:RestrictedEvalProvider.compile"]}
{"id": "C98", "title": "The rule used for a type is that of the most specific registered class", "statement": "An extensible function (defdata, evaluate, syntactic_eq, ...) uses, for a type, the rule registered for it; else the rule of a registered superclass, by issubclass, that has no registered superclass of the type below it. If all registered superclasses are inherited, it is the first registered class of __mro__, whatever the order of registration. Registering a rule, or a class with an abstract class, takes effect at the next use. It fails only if two registered abstract classes are equally good or the orders of bases contradict.", "quantifier": "all class hierarchies, registries, virtual subclasses, and histories of registrations and uses", "why_tests_cant": "The choice depends on all registered rules, on the order of imports and on what was used before; tests fix a few classes.", "anchors": ["effectful/ops/types.py:_CustomSingleDispatchCallable", "effectful/ops/syntax.py:defdata", "effectful/ops/semantics.py:evaluate", "effectful/ops/syntax.py:syntactic_eq"]}
{"id": "C99", "title": "A model is told of its errors, and of nothing else", "statement": "When a response cannot be decoded, RetryLLMHandler sends the same history again with, for each malformed response in order, that response and a message with the text of its error, answering the tool call concerned; it stops when a response is decoded, on other exceptions, or at the stop condition, raising the last error, and the history keeps only the good response. Exceptions of tools in catch_tool_errors are answered with their text and, if include_traceback, their traceback; others are raised and nothing is appended.", "quantifier": "all histories, sequences of responses and errors, stop conditions, settings, exceptions and class hierarchies", "why_tests_cant": "Tests replay a few canned responses and look for words of the message; what the traceback shows depends on what is being handled at the time.", "anchors": ["effectful/handlers/llm/completions.py:RetryLLMHandler", "effectful/handlers/llm/completions.py:ToolCallDecodingError", "effectful/handlers/llm/completions.py:ResultDecodingError", "effectful/handlers/llm/completions.py:ToolCallExecutionError", "effectful/handlers/llm/completions.py:call_tool"]}
{"id": "C100", "title": "A cached call is answered as the same call was first answered", "statement": "Under functools.cache, as the docs advise for templates and the library uses for its operations, a call that has returned gives that result ever after without running; a call is the same if its positional arguments and its keyword arguments, names and order included, are equal; exceptions are not kept; an answer never comes from another call. name_to_sym gives one operation for each name.", "quantifier": "all arguments, sequences and nestings of calls, results and exceptions", "why_tests_cant": "What a call returns depends on all calls made before it, in any handler and in any nesting; tests repeat one call.", "anchors": ["docs/source/llm.ipynb:haiku", "effectful/handlers/indexed.py:name_to_sym", "effectful/handlers/torch.py:_register_torch_op", "effectful/handlers/jax/_handlers.py:_register_jax_op", "effectful/handlers/pyro.py:_register_distribution_op"]}
{"id": "C101", "title": "Handlers that offer tools compose, and keep offering them while the model runs code", "statement": "Under any stack of LexicalReaders and PythonRepl, in any order, a request offers exactly the session's exec_code (with PythonRepl), the tools found in the call's environment, and readers of the other readable variables (with LexicalReaders). With PythonRepl the environment of a request is the one the snippets run so far have left: the last binding of each name, or what it was before. Tools stay on offer under their names throughout the call.", "quantifier": "all environments, agents, stacks of the two handlers, and sequences of requests and snippets", "why_tests_cant": "Tests collect tools once under one handler; what later requests offer depends on every name the model's code has bound.", "anchors": ["effectful/handlers/llm/completions.py:collect_tools", "effectful/handlers/llm/completions.py:LexicalReaders", "effectful/handlers/llm/completions.py:PythonRepl", "effectful/handlers/llm/evaluation.py:ReplSession"]}
{"id": "C102", "title": "A reader says what is in the object its variable held when it was offered", "statement": "Under LexicalReaders, in every round of a template call, a reader answers with what its variable's value of the beginning of the round contains at the time of the call: changes in place by calls before it show at once, assignments from the next round on. Reading changes nothing; every variable whose contents can be encoded is offered; a variable that cannot be read is skipped; what is offered can be read, and gives the current value as its description says.", "quantifier": "all environments, lists shared and changed in place, and sequences of rounds of reads and code", "why_tests_cant": "Tests read an unchanged variable once; what a reader gives depends on every assignment and change in place between its making and its call.", "anchors": ["effectful/handlers/llm/completions.py:_LexicalVariableTool", "effectful/handlers/llm/completions.py:LexicalReaders", "effectful/handlers/llm/completions.py:call_tool", "effectful/handlers/llm/completions.py:LiteLLMProvider._call"]}
