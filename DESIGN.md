# A machine-checked model of reactpy

## 1. What is here

* `properties.jsonl` – the properties, in terms of the API. It is generated by `tools/gen_properties.py`.
* `rocq/theories/*.v` – the model, independent specifications, proofs and property theorems. The larger parts are
  split into `*Model.v`, `*Spec.v`/`*Obs.v`, proof files and `*Props.v`; the smaller ones are single files. Theorems that
  settle a property are named after it (`C01_…`), followed by `Print Assumptions` and non-vacuity `Example`s.
* `MANIFEST.json` – property → theorem names → status.
* `seeded/LOG.jsonl` – record of the wrong programs the theorems were tried against. `first_failures` lists the
  proofs (lemmas, theorems, examples) that themselves no longer go through after the edit, `failed` the property theorems
  among these or depending on them. A theorem in `failed` is one whose proof was lost; where only a lemma that follows the
  shape of a definition broke, this alone does not show that the theorem is false of the edited program.
  Dependencies are read from the compiler's `.glob` files. An earlier version of that reading took `Print Assumptions T` for a
  use of `T` by the definition before it, and so put unaffected theorems into `failed` in 297 entries; these were removed (each
  entry kept a theorem of the property it is about). In the 26 entries with eight `first_failures`, where that list is cut off,
  and beyond 25 names, where `failed` is, this could not be checked: `failed` may still name too many there.

## 2. Trusted base

* Coq 8.16.1's kernel (and `vm_compute` for the concrete witnesses of `Example`s and `_refuted` theorems).
* `Print Assumptions` of every property theorem is intended to be "Closed under the global context";
  section 6 lists any exception. No axiom is declared; only Coq's standard library is used.
  Loading `Lia` and the rationals also loads `Coq.ssr.ssrunder`, whose module type `Under_rel` has seven fields that
  a checker of the whole environment lists as axioms (`Under_rel`, `Under_rel_from_rel`, `Under_relE`, `Over_rel`,
  `over_rel`, `over_rel_done`, `under_rel_done`). No theorem here depends on them.
* The hand-written translation from Python/TypeScript to Gallina. Every definition cites the lines it
  models and names its simplifications.
* The semantics given to the platform: asyncio (run-to-await atomicity, FIFO ready queue where used,
  `asyncio.Queue` as in CPython 3.11–3.13), `dict` ordering, POSIX rename/unlink/O_EXCL for file operations.

## 3. Modelling conventions

* Python dicts are insertion-ordered association lists with unique keys (`Dict.v`).
* Objects with identity live in append-only heaps (lists indexed by `nat`).
* Exceptions are values: a computation gives `Ok`, `Exn` or (for fuelled recursion) `OutOfFuel`. No theorem
  takes credit for an `OutOfFuel` run: statements are about runs that return, and separate lemmas
  or examples show runs that do.
* User code (component bodies, effects, handlers) is a parameter, quantified over in the theorems.
  A component body is a free term over the hook primitives, with arbitrary Coq functions as continuations.
* Concurrency: a run is a list of operations; wherever the code awaits, the environment may execute an arbitrary
  list of operations (the list of batches is an input of the model, and theorems quantify over it).
* Strings are Coq `string` (8-bit characters). Where case mapping matters only ASCII letters are mapped.

## 4. Plan per property

Key: H = heap/registry model of `Layout` with arbitrary environment batches at awaits; K = hook machine; S = small-step
schedule machine; F = pure function; R = refutation by a concrete run of the faithful model, usually next to
a guarded positive theorem.

| id | model | how it is proved |
|----|-------|------------------|
| C01 | H: `_serial_render`, `_create_layout_update`, `_render_component`, `_render_model`, `_render_model_attributes`, `_render_model_children`, `_unmount_model_states` over a heap of `_ModelState`s | representation predicate heap ⊢ tree, induction on fuel; then invariant "queued or settled" over op lists. The theorems on C01–C07 and C11–C13 are for histories in which render functions raise only in components that until then have returned nothing but texts and elements without components and event handlers (`mild_failures`; the log records what each render returned); R (C05) shows why other failures are excluded |
| C02 | H + client apply function written independently | invariant client = view(tree) over op lists |
| C03 | H | relation old tree / new tree from the same induction |
| C04 | H, log of unmounts | pointwise description of log growth; close op |
| C05 | H | registry = components of the tree; R for the error path |
| C06 | H | handler table = targets of the tree; R for static targets |
| C07 | F: key path and target strings | string injectivity; R without guard |
| C08 | F: `_get_children_info` | list induction; iff with `NoDup` spec |
| C09 | H from an empty layout | induction on fuel against a denotational spec with failures |
| C10 | F: `_get_children_info` | list induction |
| C11 | H | queue invariant over op lists |
| C12 | H | invariant on context maps along the tree |
| C13 | H, exit stack and log | log shape |
| C14–C19 | K: `LifeCycleHook.use_state`, `use_state`, `use_reducer`, `use_memo`, `use_callback`, `use_ref` | induction on render/dispatch histories against folds |
| C18, C20 | K | R + guarded theorem |
| C21, C22 | S: effect tasks of one hook, all interleavings | trace invariant; R for raising clean-ups |
| C23 | S: asynchronous effects | R by a schedule; partial invariant |
| C24 | F: `strictly_equal` on a value universe with functions and closures | case analysis; R for closures |
| C25–C28 | S: async rendering: tasks, per-component lock, cancellation, permits | invariants over all schedules; R for C28 |
| C29–C33 | S: per-target queues, processing tasks | invariants over all schedules; R for C30 and C32 |
| C34 | F | list induction |
| C35 | F on instruction lists | list induction against a declarative spec; R |
| C36 | S | invariants over all schedules |
| C37–C41 | F (C41 also H) | structural induction |
| C42–C45 | F on lxml-like trees | structural induction; R for C45 |
| C46–C48 | S on a set of options | invariants over op lists; R |
| C49–C52 | F | induction; R |
| C53, C54 | S: file system steps, crash at any point | invariants; R |
| C55 | F: base64 | round trip by 3-byte groups |
| C56 | K | fold over events |
| C57, C58 | F | case analysis against a routing table spec |
| C59, C60 | F: JSON tree updates | induction on paths; R |
| C61–C65 | S: browser client timers, sockets, inputs | invariants over op lists; R |
| C66–C69 | F | induction; R |
| C70, C71 | F on strings and attribute dicts | case analysis; R |
| C72 | F: the scanner on characters, against a grammar of export statements | induction; R |
| C73 | S: the lock of C54 with a missing directory; H: the histories of C99 | invariant; R |
| C74 | S: queue, dispatcher and receive loop of one connection | invariant over all schedules; R |
| C75 | F on texts as UTF-8 bytes | case analysis; R |
| C76 | F on a heap of page objects, with fuel bounded by its size | soundness and completeness against a relational specification, induction on fuel and paths; R |
| C77 | S: render tasks, model states, registry and effects of a changing component tree, one op per run of a task between suspensions | invariant over all schedules without overlap (trees in the store of states, a tree with a hole while a task renders), and over all schedules that overlap only in separate parts of the tree (a tree with several holes, each step framed off from the other renders); R |
| C78 | S: the same system | invariant over all schedules (locks, order of ids along the tree); R |
| C79 | F: URL parameters, form encoding and its decoding, on UTF-8 bytes | round trip by induction on strings and parameter lists |
| C80 | F: expression trees, the walk with fuel; meaning = evaluation in an arbitrary algebra | induction on fuel, simulation; R |
| C81 | F: lines of code points, positions in bytes; the comment finder is a parameter | induction on the list of nodes; splicing relation; R |
| C82 | S: the element's state, loads outstanding, log of calls to bindings; events in any order | invariant over event lists; replay of the log on an abstract element; R |
| C83 | S: the hook's state with delayed effects and loads outstanding, log of calls; React roots as replay of the log | invariant over event lists; R |
| C84 | F: model trees, values of the module, calls of handler functions | induction on paths and calls; R |
| C85 | F: model trees, nodes of the document, morphdom (a library outside /repo, modelled from its documented algorithm, without ids) | induction on trees and histories; R |
| C86 | F: texts as code points, the template, replacement, indentation, the page | induction on texts; R |
| C87 | F: configuration values, JSON text, the page's elements | case analysis, induction on JSON values; R |
| C88 | S: places on the page, namespaces, scripts and tasks | invariant over histories; R |
| C89 | F: page text, script elements, tokens of JavaScript, URLs, routing | reading the written text back piece by piece; composition with C57 and C58; R |
| C90 | S: `process_settings` over the options of config.py (model of C46) | the parts of options that never change; locality of setting; induction on settings and on permutations; R |
| C91 | S: the client's lists of handlers, `handleIncoming`, the wait for `ready` | lists of handlers against a relation on the history of registrations and removals; invariant of a page's life; R |
| C92 | S: `component`, `Signature.bind`, `Component.__repr__` and one render of a tree with failures | induction on parameters (what is bound comes from the arguments) and on trees with a hole; R |
| C93 | H: the layout's history with the page's client and the browser's model, for any number of connections; and with the handler that runs in the browser | composition: C01, C02 (layout), C91 (messages), C60 and C59 (model), C85 (document); the update stream of every history starts at the root and applies (new invariant); R |
| C94 | S: callables with bodies, `to_event_handler_function`, `Event.__getattr__`; H: the task group of merged handlers | induction on callables and paths; invariant over all schedules (done and left make up the program); R |
| C95 | H: contexts with shared lists, tokens, tasks started anywhere, any interleaving | each render owns a list that no other task writes; lists left behind are empty; invariant over all schedules; R |
| C96 | H: `__aexit__` between suspensions, on top of the async tree and handler tasks | the tree invariant of C77 gives a clearable tree; invariant per phase of leaving; decreasing measure; R (7 witnesses) |
| C97 | H: the dictionaries of `__aenter__` on top of the async tree and the event machine | bound by induction over schedules; exact set of targets; growth without bound by induction on the number of renders and clicks; R |
| C98 | H: watched files with times, the two wheel directories, a build that takes time; names, inodes and write positions for the copy | names characterised for all strings; invariant over histories under a guard; crash at any step by induction; findings for each part of the guard; R |
| C99 | H: source files, module directory (copies and links), caches, working directory; calls, edits, restarts | cache entries traced to the first call that did not fail; invariants over histories under a guard; findings for each part of the guard; R |
| C100 | S: tasks of a group with their next steps; start, wake, throw, cancel | invariant tying each task to what was seen of it; measure for termination; R |
| C101 | S: receiving loop, queue, dispatcher, task group, leaving of one connection | invariant on the log over all schedules; measure for progress; R |
| C102 | H: statements and blocks of a test over the one list of captured records | induction over statements, balanced stretches of the trace; R |
| C103 | S: the loop over a list it shortens; H: fixtures | induction over the list; exact results; R |
| C104 | H: bytes reach the disk one at a time; UTF-8 and locale encoding | invariant over the files done, with at most one torn file; R |
| C105 | S: flattening with warnings as output, the Python stack as a list of frames, Python's stack levels | induction on the children; R |
| C106 | H: renders of one component, a heap of objects that may change in between | invariant over the renders; two runs compared; R |
| C107 | S: a JavaScript with scopes, this and strict mode; two evaluators with fuel | simulation by induction on the fuel; R |
| C108 | S: views with a state, a callback and a requested render; events in any order | invariants by induction over histories; R |
| C109 | H: two runs of the layout's model | the layout commutes with erasing the texts; by induction over fuel and history |
| C110 | H: what an update renders and how many there are | the history invariants of LayoutMain.v; for the bound a potential (answered, pending and still possible requests) that no function of the layout increases, for the bound |
| C111 | H: the constructors of the three applications, `route`, `lifespan`, requests and the cached page, over one state of the process's options and the user's head elements | an application's record changes by its own operations only; induction over histories; composition with C57, C58, C89 and C90 |
| C112 | H: `UserInputElement` with its counters, effect and handlers (one set for each render, with debounce and throttle), the two directions of the connection, and the server's numbers | invariant: each number stands for one event of the user, the newest is held back, on its way or acknowledged, and the text is the value once it is acknowledged |
| C113 | H: programs with components, keys and `None`, the models made of them, and which nodes a render keeps (Preact's rule, assumed as documented: a child is taken for the one with its key, or without a key for the one at its position; its search of neighbouring positions in mixed lists is left out) | induction over models: the node at a place is the old one exactly if the names on the way are the same; programs are mapped to places in the browser |
| C114 | H: the layout's model (LayoutModel.v) run on a program with own targets and on the same program without | simulation of the two runs: the states are equal up to a renaming of targets, given that each place has one target; C06 and C07 carry over |
| C115 | H: time, a clock and the calls of a polled function with their lengths; the calls of a captured render function | invariant over the rounds of the loop; bounds from the lengths of sleeps and calls; induction over captured calls |
| C116 | H: the layout's model (LayoutModel.v); finite nesting as an inductive predicate over what components may show | monotonicity in fuel; invariant that children are younger than their parents; induction over the nesting |
| C117 | H: the layout's model (LayoutModel.v) run twice, with and without numbers | relation between the two states kept by every primitive; induction over fuel and operations |
| C118 | H: OptionModel.v with the reads of `current` by each method and their warnings | simulation of the plain model; induction over subscribers and fuel for the options warned about |
| C119 | H: the fixture's attributes and exit stack, resources that are opened and closed in order | the complete log of a block, by cases of what is given and induction over its body |
| C120 | H: the three hooks as programs over use_context, the root of a session as a provider | from C12 and C02 by induction over the displayed tree |

Not modelled: lxml's parser and serialiser, the JSON encoding on the wire, the React renderer, the ASGI server,
PyScript's runtime, templating of HTML shells, logging configuration, Python's import system, the `bun` build scripts.

## 5. Which code is modelled

The layout (C01–C13) is modelled for serial rendering (`async_rendering=False`) in full; asynchronous rendering is modelled with
its tasks, locks and cancellation (C25–C28, C82) over a simplified tree. Platform parts that are not in /repo are given by a small
specification or a parameter, and named in the comments: lxml's and the browser's HTML parsers, `json`, `re`, `inspect`, `ast`
and `tokenize`, React and Preact, morphdom (from its documented behaviour), PyScript, ServeStatic, Jinja, uvicorn and Playwright.

The list below is made by `tools/coverage.py` from the lines that comments of the model cite: a function is modelled if at
least half of its lines are cited, in part if fewer are. What is left out of a modelled function is said in the comment of its
definition. Small helpers that are modelled as a part of their caller without a citation of their own:
`_make_life_cycle_state`, `_update_life_cycle_state`, `_HookStack`, `get_context_provider`, `create_context`, `_use_const`,
`Layout.render`, `is_vdom`, `match_static_path`, `match_web_modules_path`.

<!-- coverage -->
* `@reactpy/client/src/bind.tsx` – modelled: `reactjs_bind`; not modelled: `infer_bind_from_environment`, `local_preact_bind`
* `@reactpy/client/src/client.ts` – modelled: `ReactPyClient`
* `@reactpy/client/src/components.tsx` – modelled: `throttleHandler`, `debounceHandler`, `Layout`, `Element`, `UserInputElement`, `ScriptElement`, `ImportedElement`, `useForceUpdate`, `useImportSource`; in part: `StandardElement`
* `@reactpy/client/src/handler.ts` – modelled: `isValidDebounce`
* `@reactpy/client/src/mount.tsx` – modelled: `mountReactPy`
* `@reactpy/client/src/vdom.tsx` – modelled: `createImportSourceElement`, `getComponentFromModule`, `isImportSourceEqual`, `createChildren`, `createAttributes`, `createEventHandler`, `createInlineJavaScript`, `ReactPyChild`; in part: `loadImportSource`; not modelled: `stringifyImportSource`
* `@reactpy/client/src/websocket.ts` – modelled: `syncBrowserLocation`, `createReconnectingWebSocket`, `nextInterval`
* `event-to-object/src/index.ts` – modelled: `convert`, `serializeSelection`, `deepCloneClass`, `classToArray`, `classToObject`, `shouldIgnoreValue`
* `reactpy/_console/ast_utils.py` – modelled: `rewrite_changed_nodes`, `find_element_constructor_usages`, `_find_comments`, `_walk_with_parent`
* `reactpy/_console/cli.py` – not modelled: `entry_point`
* `reactpy/_console/rewrite_keys.py` – modelled: `generate_rewrite`, `find_nodes_to_change`; in part: `rewrite_keys`; not modelled: `log_could_not_rewrite`
* `reactpy/_console/rewrite_props.py` – modelled: `rewrite_props`, `generate_rewrite`, `find_nodes_to_change`, `conv_attr_name`, `_construct_prop_item`, `_rewrite_props`
* `reactpy/_html.py` – modelled: `_fragment`, `_script`, `SvgConstructor.__getattr__`, `HtmlConstructor.__getattr__`; not modelled: `SvgConstructor.__call__`
* `reactpy/_option.py` – modelled: `Option.__init__`, `Option.name`, `Option.mutable`, `Option.default`, `Option.current`, `Option.subscribe`, `Option.set_current`, `Option.set_default`, `Option.reload`, `Option.unset`, `DeprecatedOption.__init__`, `DeprecatedOption.current`; not modelled: `Option.current`, `Option.is_set`
* `reactpy/_warnings.py` – modelled: `warn`, `_frame_depth_in_module`, `_iter_frames`
* `reactpy/config.py` – modelled: `boolean`
* `reactpy/core/_event_inspect.py` – modelled: `inspect_event_handler`, `_function_arg_defaults`, `_closure_lookup`, `_resolve_debounce_value`; not modelled: `_constant_ints_by_name`
* `reactpy/core/_f_back.py` – not modelled: `f_module_name`, `f_back`
* `reactpy/core/_life_cycle_hook.py` – modelled: `_HookStack.get`, `_HookStack.initialize`, `_HookStack.reset`, `_HookStack.current_hook`, `LifeCycleHook.__init__`, `LifeCycleHook.schedule_render`, `LifeCycleHook.use_state`, `LifeCycleHook.add_effect`, `LifeCycleHook.set_context_provider`, `LifeCycleHook.get_context_provider`, `LifeCycleHook.affect_component_will_render`, `LifeCycleHook.affect_component_did_render`, `LifeCycleHook.affect_layout_did_render`, `LifeCycleHook.affect_component_will_unmount`, `LifeCycleHook.set_current`, `LifeCycleHook.unset_current`
* `reactpy/core/_thread_local.py` – modelled: `ThreadLocal.__init__`, `ThreadLocal.get`
* `reactpy/core/component.py` – modelled: `component`
* `reactpy/core/events.py` – modelled: `event`, `EventHandler.__init__`, `EventHandler.__eq__`, `to_event_handler_function`, `merge_event_handlers`, `merge_event_handler_funcs`
* `reactpy/core/hooks.py` – modelled: `use_state`, `_CurrentState.__init__`, `use_effect`, `use_async_effect`, `use_debug_value`, `use_context`, `use_connection`, `use_scope`, `use_location`, `use_reducer`, `_create_dispatcher`, `use_callback`, `use_memo`, `_Memo.empty`, `use_ref`, `_try_to_infer_closure_values`, `strictly_equal`, `run_effect_cleanup`; not modelled: `create_context`, `_use_const`
* `reactpy/core/layout.py` – modelled: `Layout.__aenter__`, `Layout.__aexit__`, `Layout.deliver`, `Layout._process_event_queue`, `Layout._serial_render`, `Layout._parallel_render`, `Layout._create_layout_update`, `Layout._render_component`, `Layout._render_model`, `Layout._render_model_attributes`, `Layout._inject_event_ack_seq`, `Layout._render_model_event_handlers_without_old_state`, `Layout._serialize_event_handler`, `Layout._render_model_children`, `Layout._unmount_model_states`, `Layout._schedule_render_task`, `_new_root_model_state`, `_make_component_model_state`, `_copy_component_model_state`, `_update_component_model_state`, `_make_element_model_state`, `_update_element_model_state`, `_ModelState.__init__`, `_ModelState.is_component_state`, `_ModelState.parent`, `_ModelState.append_child`, `_ThreadSafeQueue.__init__`, `_ThreadSafeQueue.put`, `_ThreadSafeQueue._schedule_put`, `_ThreadSafeQueue._put_with_backpressure`, `_ThreadSafeQueue.get`, `_ThreadSafeQueue.close`, `_get_children_info`; not modelled: `Layout.__init__`, `Layout.render`, `_make_life_cycle_state`, `_update_life_cycle_state`
* `reactpy/core/serve.py` – modelled: `_single_incoming_loop`; in part: `serve_layout`, `_single_outgoing_loop`
* `reactpy/core/vdom.py` – modelled: `Vdom.__init__`, `Vdom.__getattr__`, `Vdom.__call__`, `separate_attributes_and_children`, `separate_attributes_handlers_and_inline_javascript`, `_flatten_children`, `_is_single_child`, `_validate_child_key_integrity`; not modelled: `validate_vdom_json`, `is_vdom`
* `reactpy/executors/asgi/middleware.py` – modelled: `_location_from_websocket_query_string`, `ReactPyMiddleware.__init__`, `ReactPyMiddleware.__call__`, `ReactPyMiddleware.match_dispatch_path`, `ReactPyMiddleware.match_extra_paths`, `ComponentDispatchApp.__call__`, `ReactPyWebsocket.__aenter__`, `ReactPyWebsocket.__aexit__`, `ReactPyWebsocket.run_dispatcher`, `WebModuleApp.__call__`; in part: `ReactPyWebsocket.__init__`, `ReactPyWebsocket.send_json`; not modelled: `ReactPyMiddleware.match_static_path`, `ReactPyMiddleware.match_web_modules_path`, `StaticFileApp.__call__`, `Error404App.__call__`
* `reactpy/executors/asgi/pyscript.py` – modelled: `ReactPyCsr.__init__`, `ReactPyCsr.match_dispatch_path`, `ReactPyPyscriptApp.render_index_html`
* `reactpy/executors/asgi/standalone.py` – modelled: `ReactPy.__init__`, `ReactPy.match_dispatch_path`, `ReactPy.match_extra_paths`, `ReactPy.route`, `ReactPy.lifespan`, `ReactPyApp.__call__`, `ReactPyApp.render_index_html`
* `reactpy/executors/pyscript/component_template.py` – modelled: `user_workspace_UUID`
* `reactpy/executors/pyscript/components.py` – modelled: `_pyscript_component`; not modelled: `pyscript_component`
* `reactpy/executors/pyscript/layout_handler.py` – modelled: `ReactPyLayoutHandler.update_model`, `ReactPyLayoutHandler.render_html`, `ReactPyLayoutHandler.build_element_tree`, `ReactPyLayoutHandler.create_event_handler`, `ReactPyLayoutHandler.delete_old_workspaces`, `ReactPyLayoutHandler.run`; not modelled: `ReactPyLayoutHandler.__init__`
* `reactpy/executors/pyscript/utils.py` – modelled: `minify_python`, `pyscript_executor_html`, `pyscript_component_html`, `pyscript_setup_html`, `extend_pyscript_config`, `_reactpy_pkg_string`, `_ensure_local_reactpy_wheel`, `_source_checkout_exists`, `_reactpy_repo_root`, `_packaged_reactpy_wheels_dir`, `_find_current_reactpy_wheel`, `_wheel_matches_local_version`, `_normalize_wheel_part`, `_wheel_is_stale_for_source`, `_build_reactpy_wheel_from_source`, `_hatch_build_command`, `_copy_reactpy_wheel_to_static_dir`, `_wheel_archive_name`, `_rebuild_installed_reactpy_wheel`, `_installed_wheel_name`, `_installed_wheel_tag`, `_installed_wheel_record_name`, `_record_row`, `fetch_cached_python_file`; not modelled: `_record_text`
* `reactpy/executors/utils.py` – modelled: `import_components`, `check_path`, `vdom_head_to_html`, `process_settings`, `server_side_component_html`, `default_import_map`
* `reactpy/logging.py` – modelled: `_set_debug_level`
* `reactpy/reactjs/__init__.py` – modelled: `component_from_string`; in part: `component_from_url`, `component_from_npm`, `component_from_file`
* `reactpy/reactjs/module.py` – modelled: `url_to_module`, `file_to_module`, `string_to_module`, `module_to_vdom`, `make_module`, `module_name_suffix`, `get_module_path`; not modelled: `import_reactjs`
* `reactpy/reactjs/utils.py` – modelled: `resolve_names_from_file`, `resolve_names_from_url`, `resolve_names_from_source`, `normalize_url_path`, `are_files_identical`, `copy_file`, `file_lock`
* `reactpy/templatetags/jinja.py` – modelled: `component`; not modelled: `ReactPyJinja.render`, `pyscript_component`, `pyscript_setup`
* `reactpy/testing/backend.py` – modelled: `BackendFixture.__init__`, `BackendFixture.__aexit__`, `_hotswap`; in part: `BackendFixture.__aenter__`; not modelled: `BackendFixture.url`, `BackendFixture.list_logged_exceptions`, `BackendFixture.restart`
* `reactpy/testing/common.py` – modelled: `poll.__init__`, `poll.until`, `poll.until_is`, `poll.until_equals`, `HookCatcher.__init__`, `HookCatcher.capture`, `StaticEventHandler.__init__`, `StaticEventHandler.use`
* `reactpy/testing/display.py` – modelled: `DisplayFixture.__init__`, `DisplayFixture.show`, `DisplayFixture.goto`, `DisplayFixture.__aenter__`, `DisplayFixture.configure_page`, `DisplayFixture.__aexit__`, `_playwright_visible`
* `reactpy/testing/logs.py` – modelled: `assert_reactpy_did_log`, `assert_reactpy_did_not_log`, `list_logged_exceptions`, `capture_reactpy_logs`, `_LogRecordCaptor.handle`; not modelled: `_LogRecordCaptor.__init__`, `_raise_log_message_error`
* `reactpy/transforms.py` – modelled: `attributes_to_reactjs`, `RequiredTransforms.__init__`, `RequiredTransforms.normalize_style_attributes`, `RequiredTransforms.textarea_children_to_prop`, `RequiredTransforms.select_element_to_reactjs`, `RequiredTransforms.input_element_value_prop_to_defaultValue`, `RequiredTransforms.infer_key_from_attributes`, `RequiredTransforms.intercept_link_clicks`, `RequiredTransforms._parse_options`, `RequiredTransforms._kebab_to_camel_case`
* `reactpy/types.py` – modelled: `Component.__init__`, `Component.render`, `VdomDict.__init__`, `VdomDict.__getitem__`, `VdomDict.__setitem__`, `ContextProvider.__init__`, `ContextProvider.render`, `Event.__getattr__`
* `reactpy/utils.py` – modelled: `Ref.__init__`, `Ref.set_current`, `Ref.__eq__`, `_etree_to_vdom`, `_add_vdom_to_etree`, `_generate_vdom_children`, `component_to_vdom`, `_react_attribute_to_html`, `import_dotted_path`; not modelled: `reactpy_to_string`, `string_to_reactpy`, `Singleton.__new__`
* `reactpy/web/module.py` – not modelled: `module_from_url`, `module_from_file`, `module_from_string`, `export`
* `reactpy/widgets.py` – modelled: `image`; in part: `use_linked_inputs`
<!-- end of coverage -->

The build scripts (`src/build_scripts`) and the type stubs are not modelled.

## 6. Status

See `MANIFEST.json`.
