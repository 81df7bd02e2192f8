{"claims": [
  {"property": "C01", "status": "proved", "theorems": ["C01_ui_is_function_of_state", "C01_ui_of_hook_programs", "C01_same_state_same_ui"], "note": "Histories in which a render function raises only in a component that until then has returned nothing but texts and elements without components and event handlers (mild_failures), as in the property statement; mild_failures follows from no_failure (no_failure_mild). steady_app (render functions are pure in state, props and context; satisfied by every scoped hook program, compile_steady) is the meaning of 'a function of the state'. A component whose last render failed shows the text of that failure; C01_nonvacuous_failing and C01_nonvacuous_failing_again are runs with such failures and recoveries."},
  {"property": "C02", "status": "proved", "theorems": ["C02_client_mirrors", "C02_each_update_applies"], "note": "Histories in which a render function raises only in a component that until then has returned nothing but texts and elements without components and event handlers (mild_failures), as in the property statement; mild_failures follows from no_failure (no_failure_mild)."},
  {"property": "C03", "status": "proved", "theorems": ["C03_keyed_identity", "C03_otherwise_unchanged"], "note": "Histories in which a render function raises only in a component that until then has returned nothing but texts and elements without components and event handlers (mild_failures), as in the property statement; mild_failures follows from no_failure (no_failure_mild)."},
  {"property": "C04", "status": "proved", "theorems": ["C04_unmounts_of_an_update", "C04_at_most_once", "C04_exit_unmounts_all", "C04_exit_succeeds"], "note": "Histories in which a render function raises only in a component that until then has returned nothing but texts and elements without components and event handlers (mild_failures), as in the property statement; mild_failures follows from no_failure (no_failure_mild). C04_exit_succeeds needs well-formed keys and automatic targets (keyed_app)."},
  {"property": "C05", "status": "proved", "theorems": ["C05_rerenderable_iff_mounted", "C05_reacts_iff_mounted", "C05_refuted"], "note": "Histories in which a render function raises only in a component that until then has returned nothing but texts and elements without components and event handlers (mild_failures), as in the property statement; mild_failures follows from no_failure (no_failure_mild). C05_refuted shows that the guard is needed: after a failed re-render orphaned children stay registered and a later set_state makes render() raise."},
  {"property": "C06", "status": "proved", "theorems": ["C06_targets_exact", "C06_refuted", "C06_shared_target_refuted"], "note": "Histories in which a render function raises only in a component that until then has returned nothing but texts and elements without components and event handlers (mild_failures), as in the property statement; mild_failures follows from no_failure (no_failure_mild). C06_refuted and C06_shared_target_refuted: with user-chosen targets the property fails."},
  {"property": "C07", "status": "proved", "theorems": ["C07_auto_targets_injective", "C07_no_collision_in_a_tree", "C07_refuted"], "note": "C07_refuted: without the guards on keys targets collide. C07_no_collision_in_a_tree: histories with mild_failures."},
  {"property": "C08", "status": "proved", "theorems": ["C08_duplicates_detected", "C08_distinct_accepted", "C08_error_shown"], "note": "C08_error_shown: on first mount the enclosing component is shown as the error node."},
  {"property": "C09", "status": "proved", "theorems": ["C09_first_mount", "C09_contained", "C09_message_only_in_debug"], "note": "First mount of any tree with any failing components; serial rendering; the environment may act before and during the render. The message is modelled as the exception text. The log message of a failure prints the component; that it can be printed is assumed here and studied in C92."},
  {"property": "C10", "status": "proved", "theorems": ["C10_none_keeps_siblings", "C10_none_not_displayed", "C02_client_mirrors"], "note": "C02 ties displays_all to the client's model."},
  {"property": "C100", "status": "partial", "theorems": ["C100_all_called", "C100_outcome", "C100_undisturbed", "C100_no_wait", "C100_ends", "C100_cut_refuted"], "note": "False for functions that wait while another one fails: they are cancelled at the wait (C100_cut_refuted). The task group is modelled from anyio's documentation, which is not in the repository; shielded waits are not modelled."},
  {"property": "C101", "status": "partial", "theorems": ["C101_delivery", "C101_updates", "C101_finish", "C101_end", "C101_left_partial", "C101_gone", "C101_interrupted_refuted", "C101_silent_refuted", "C101_malformed_refuted", "C101_early_refuted", "C101_logged", "C101_backpressure"], "note": "False for sessions that fail (the four refuted theorems); C101_left_partial is for sessions that do not fail before the connection ends. The accepting of a connection by asgi_tools and the web server is modelled from their documentation: C101_early_refuted needs a server whose accept takes longer than the first render. What goes wrong inside Layout.__aexit__ is in C96."},
  {"property": "C102", "status": "partial", "theorems": ["C102_did_log_partial", "C102_did_not_log_partial", "C102_restored", "C102_nested_refuted", "C102_hidden_refuted", "C102_swallowed_refuted", "C102_level_refuted"], "note": "Proved for blocks in which no level is changed and no record removed, if no earlier record of the surrounding blocks is as described and, for did_not_log, no log assertion fails inside; the refuted theorems show that these guards are needed. Regular expressions and the text of tracebacks are parameters. Blocks of concurrent tasks that overlap are not modelled."},
  {"property": "C103", "status": "partial", "theorems": ["C103_list", "C103_remove_partial", "C103_fixture_partial", "C103_adjacent_refuted", "C103_wrong_refuted", "C103_fixture_refuted", "C103_earlier_refuted", "C103_start_refuted"], "note": "Listing without removal is exact; with removal it is right if at most one record is wanted. The fixture's check is refuted: C103_fixture_refuted says for every body that it never fails when it is the outermost block. uvicorn is not modelled beyond starting and stopping."},
  {"property": "C104", "status": "partial", "theorems": ["C104_files_partial", "C104_finishes", "C104_stopped_partial", "C104_again_partial", "C104_settled", "C104_utf8", "C104_crash_refuted", "C104_encoding_refuted", "C104_newline_refuted", "C104_stops_refuted", "C104_folder_refuted", "C104_read"], "note": "Proved for paths that do not overlap, or for a rewriting that leaves its own results alone (C104_settled: if the locale is UTF-8). Stopped at any byte, at most one file has neither its old nor its new content (C104_stopped_partial; the refuted theorems show how it is lost), and if there is none, running the command again completes the work. What is written for a source is a parameter (C80, C81). No symbolic links; nothing else writes to the disk."},
  {"property": "C105", "status": "partial", "theorems": ["C105_reported_partial", "C105_not_verified", "C105_once", "C105_where", "C105_children", "C105_quiet", "C105_strict", "C105_none_key_refuted", "C105_generator_refuted", "C105_top_module_refuted"], "note": "Proved for children without an element whose key is None, and for the items of iterables that have a length. C105_where assumes that no frame of importlib is between the user's code and the warning. Not modelled: mappings whose attributes are not a mapping, exceptions in a __repr__, and the filters of the warnings module beyond turning warnings into exceptions."},
  {"property": "C106", "status": "partial", "theorems": ["C106_logs_partial", "C106_values", "C106_quiet", "C106_harmless", "C106_in_place_refuted", "C106_array_refuted", "C106_raise_refuted", "C106_style_refuted"], "note": "Proved if objects are not changed in place, have comparisons with a truth value, functions do not raise, and equal dependencies mean equal messages (nothing of that kind is needed for plain values); C106_quiet holds without guards, C106_harmless without arrays. Dependencies that are functions and the logger itself (C102) are not modelled."},
  {"property": "C107", "status": "partial", "theorems": ["C107_same_partial", "C107_function_partial", "C107_return_refuted", "C107_names_refuted", "C107_element_refuted", "C107_global_refuted", "C107_this_refuted"], "note": "Proved for texts that do not depend on where they run (portable: names, this in functions, assignments), with no return of their own. The semantics of JavaScript is a small one written for this; loops, further statements and types, getters and event types that are not events are not modelled."},
  {"property": "C108", "status": "partial", "theorems": ["C108_opened", "C108_updated_partial", "C108_static", "C108_forgotten", "C108_fixture_partial", "C108_lost_refuted", "C108_same_name_refuted", "C108_shared_refuted"], "note": "Proved for views whose effect starts before the next swap, up to strictly_equal, and for one fixture; the refuted theorems show that this is needed. The hooks' behaviour is taken from the models of C20-C24; swaps from other threads are not modelled."},
  {"property": "C109", "status": "proved", "theorems": ["C109_debug_mode", "C109_converse", "C109_without_errors"], "note": "About the layout with serial rendering. The checks that debug mode switches on by default: the check against the VDOM schema finds nothing for programs with non-negative rate limits (C41); that attributes are JSON holds of the model's values. Warnings about keys are C105, use_debug_value is C106."},
  {"property": "C11", "status": "proved", "theorems": ["C11_coalesced", "C11_never_lost", "C11_changes_are_pending", "C11_no_request_means_current"], "note": "Histories in which a render function raises only in a component that until then has returned nothing but texts and elements without components and event handlers (mild_failures), as in the property statement; mild_failures follows from no_failure (no_failure_mild)."},
  {"property": "C110", "status": "proved", "theorems": ["C110_renders_below", "C110_cost", "C110_changing_renders_refuted"], "note": "Serial rendering. C110_renders_below is about histories in which a render function raises only in a component that until then has returned nothing but texts and elements without components and event handlers (mild_failures, as for C03-C13); C110_cost has no such guard. C110_changing_renders_refuted shows that the guard of the bound is needed: a render function that calls its own setter is rendered by every call of render()."},
  {"property": "C111", "status": "partial", "theorems": ["C111_created", "C111_failed_partial", "C111_components", "C111_routes", "C111_lifespan", "C111_page", "C111_page_kept", "C111_connects", "C111_shared_head_refuted", "C111_failed_refuted", "C111_no_head_refuted", "C111_setup_twice_refuted"], "note": "Proved for all histories, for prefixes without a dot (C57). The page is as given if no other application adds PyScript to the same head element (C111_shared_head_refuted) and its head has no end tag in it (C111_setup_twice_refuted); it connects to its own application if no application is created with settings for the prefix or the reconnection before the page is first served (C111_failed_refuted: even one whose constructor raises). Heads that are no heads are refused only when the page is requested (C111_no_head_refuted). Simplified: importing a module has no other effects, heads have no attributes, PyScript's parts are made without error."},
  {"property": "C112", "status": "partial", "theorems": ["C112_shows", "C112_written_partial", "C112_origin", "C112_free", "C112_other_key_refuted", "C112_reconnected_refuted", "C112_rejected_refuted", "C112_no_handler_refuted", "C112_late_refuted", "C112_number_refuted", "C112_debounced_refuted", "C112_waiting_refuted", "C112_again_refuted", "C112_both_refuted"], "note": "C112_shows and C112_written_partial: for an element that is shown for the first time and stays, every change of whose text calls a handler, no handler of which is both debounced and throttled, with throttle timers that are not late; each guard is needed (the _refuted theorems). C112_origin and C112_free hold for all histories. C112_written_partial leaves out one event (C65). Simplified: the effect runs with the render, a handler runs at once when its event is taken (C32), the element has the same handlers at every render."},
  {"property": "C113", "status": "partial", "theorems": ["C113_kept", "C113_new", "C113_one", "C113_program", "C113_program_partial", "C113_component_keys_refuted", "C113_none_refuted", "C113_component_type_refuted"], "note": "C113_kept, C113_new and C113_one: for all sequences of models. C113_program_partial: for programs whose components have no keys and which have no None; C113_program: where the components around the element keep their positions. Each guard is needed (the _refuted theorems). Preact is not in /repo: its rule (key, else position) is assumed as documented, without its search of neighbouring positions where children with and without keys or texts are mixed."},
  {"property": "C114", "status": "partial", "theorems": ["C114_renamed", "C114_converse", "C114_targets_exact", "C114_moved_refuted"], "note": "C114_renamed and C114_converse: each run of one program is a run of the other under other names. C114_targets_exact: with C06's guards on keys and failures. The condition of one target per place is needed: C114_moved_refuted (a handler that moves forward is dropped; new), C06_refuted (a target that changes stays registered) and C06_shared_target_refuted (a shared target raises KeyError)."},
  {"property": "C115", "status": "partial", "theorems": ["C115_returns", "C115_times_out", "C115_raises", "C115_not_before", "C115_ends", "C115_found", "C115_is_and_equals", "C115_captured", "C115_coroutine_refuted", "C115_hang_refuted", "C115_between_refuted", "C115_late_refuted", "C115_clock_refuted", "C115_position_refuted", "C115_compared"], "note": "C115_returns, C115_times_out and C115_raises hold for all timings and clocks; C115_compared says what until_is and until_equals look for. C115_ends and C115_found need an even clock, bounded sleeps and calls (C115_clock_refuted, C115_hang_refuted) and a condition that stays (C115_between_refuted). C115_late_refuted: success may come after the timeout. C115_coroutine_refuted, C115_position_refuted: misuse that is not reported as such."},
  {"property": "C116", "status": "proved", "theorems": ["C116_renders_end", "C116_one_result", "C116_goes_on", "C116_recursion_refuted"], "note": "Serial rendering. C116_renders_end: every history has a result; C116_one_result: only one; C116_goes_on: each next step and leaving the layout end. C116_recursion_refuted shows that the condition on nesting is needed. Python's limit of nested calls is not modelled: a finite nesting deeper than it shows an error instead."},
  {"property": "C117", "status": "proved", "theorems": ["C117_numbers", "C117_converse", "C117_two_clients"], "note": "Serial rendering; for all programs, also those that write the attribute themselves (it is left out of the comparison on both sides). C117_two_clients uses C116_one_result."},
  {"property": "C118", "status": "partial", "theorems": ["C118_like_plain", "C118_warned_only", "C118_always", "C118_errors", "C118_unused_refuted", "C118_set_default_refuted", "C118_partway_refuted", "C118_subscribe_refuted"], "note": "Proved for all histories, except that the code refutes two points: setting the parent of a deprecated option warns although nobody uses that option (C118_unused_refuted), while set_default of an option that is set gives its value without a warning (C118_set_default_refuted). When warnings are errors, C118_errors holds for direct reads, sets, unsets and reloads; setting the parent fails after the parent has changed (C118_partway_refuted) and a failed subscription stays registered (C118_subscribe_refuted). Subscribers in histories do not set options themselves, as in C46-C48."},
  {"property": "C119", "status": "partial", "theorems": ["C119_block", "C119_leak_refuted", "C119_twice_refuted", "C119_headless_refuted"], "note": "Proved for the first block of a fixture that can be entered, however its body ends; the refuted theorems show that both conditions are needed, and that the argument headless is ignored. Playwright and the server are modelled by what they open and close."},
  {"property": "C12", "status": "proved", "theorems": ["C12_nearest_provider"], "note": "Histories in which a render function raises only in a component that until then has returned nothing but texts and elements without components and event handlers (mild_failures), as in the property statement; mild_failures follows from no_failure (no_failure_mild)."},
  {"property": "C120", "status": "proved", "theorems": ["C120_session", "C120_page", "C120_no_backend"], "note": "On the layout model, for histories whose failures are those of render functions, under the guards of C12. A connection is the tuple of its attributes."},
  {"property": "C13", "status": "proved", "theorems": ["C13_effects_after_renders", "C13_all_effects"], "note": "Histories in which a render function raises only in a component that until then has returned nothing but texts and elements without components and event handlers (mild_failures), as in the property statement; mild_failures follows from no_failure (no_failure_mild). C13_all_effects needs no such condition."},
  {"property": "C14", "status": "proved", "theorems": ["C14_use_state_initial", "C14_use_state_fold", "C14_render_requested_iff_changed", "C14_render_functions_are_calls"], "note": "All histories of hook calls, dispatches and renders of any number of components. Equality of values is strictly_equal (veq_is_strictly_equal)."},
  {"property": "C15", "status": "proved", "theorems": ["C15_slots_positional", "C15_slots_positional_first", "C15_same_calls_same_slots", "C15_dispatch_is_local"], "note": "Positions are stated for renders in which no hook call raised so far."},
  {"property": "C16", "status": "proved", "theorems": ["C16_first_render", "C16_later_renders", "C16_action_is_first_reducer"], "note": ""},
  {"property": "C17", "status": "proved", "theorems": ["C17_first_use_computes", "C17_recomputes_iff_changed"], "note": "Covers use_memo, use_callback and the registration of effects. Guard as in the property: memo functions of the component do not raise in between."},
  {"property": "C18", "status": "partial", "theorems": ["C18_value_belongs_to_deps_partial", "C18_refuted"], "note": "The full property is false: C18_refuted exhibits a stale value after the memo function raised. Proved: a stale value is returned only if a call with the current dependencies has raised since it was computed; in all other histories the value was computed with the current dependencies."},
  {"property": "C19", "status": "proved", "theorems": ["C19_use_ref", "C19_use_callback", "C15_same_calls_same_slots"], "note": "A Ref's identity is its slot."},
  {"property": "C20", "status": "proved", "theorems": ["C20_slots_survive", "C20_first_render_failure", "C20_refuted"], "note": "The finding (part of the property's text) is proved in general (C20_first_render_failure) and shown in a layout (C20_refuted)."},
  {"property": "C21", "status": "proved", "theorems": ["C21_effects_alternate"], "note": "All schedules of registrations, renders, task steps and unmount of one component (EffectModel.v)."},
  {"property": "C22", "status": "proved", "theorems": ["C22_cleanup_on_unmount", "C22_unmount_completes", "C22_raising_refuted"], "note": "For effect functions and clean-ups that do not raise; the finding about raising clean-ups is C22_raising_refuted."},
  {"property": "C23", "status": "partial", "theorems": ["C23_overlap_refuted", "C23_shield_lost_refuted", "C23_at_most_once", "C23_async_effect_partial", "C23_restart_partial", "C23_kept", "C23_ends"], "note": "The statement is refuted for overlapping dependency changes (C23_overlap_refuted: three in a row; C23_shield_lost_refuted: one with shield). Proved: at most one call per clean-up in every schedule; one body at a time and exactly one call when no change overlaps with a running body; the same without shield when changes interrupt running bodies, as long as an interrupted body ends by its cancellation and the body that replaced it is not interrupted again. C23_kept: while the component is mounted a clean-up is called only right before the next body, and only unshielded bodies of several effects are cancelled. C23_ends: after the unmount all effects return when their bodies do, in every schedule in which no body raises."},
  {"property": "C24", "status": "proved", "theorems": ["C24_different_types", "C24_is_equality_on_values", "C24_functions", "C24_reflexive", "C24_symmetric", "C24_closures_refuted", "C24_constants_refuted", "veq_is_strictly_equal"], "note": "== is a parameter; the finding on closures is part of the property's text."},
  {"property": "C25", "status": "proved", "theorems": ["C25_mutual_exclusion"], "note": "Every tree with distinct component ids, every sequence of state changes, task steps, cancellations and deliveries. The tree of components is fixed during the run (no mounting or unmounting); see AsyncModel.v."},
  {"property": "C26", "status": "proved", "theorems": ["C26_no_lost_update", "C26_progress", "C26_settles", "C26_coalesced"], "note": "Same model as C25. C26_settles adds that a run of the pending tasks that finishes them exists from every reachable state. C26_coalesced: at most one render task per render of a component."},
  {"property": "C27", "status": "partial", "theorems": ["C27_permits", "C27_consumable", "C27_snapshot_refuted"], "note": "Proved: permits equal unconsumed tasks, never an empty wait set, each finished task is returned at most once and none is dropped. Refuted: 'does not block while a finished task exists' — render() waits only on the tasks that existed when it began to wait, so a later task that finishes first is held back."},
  {"property": "C28", "status": "partial", "theorems": ["C28_arbitrary_order_refuted", "C28_prompt_refuted", "C28_serial_partial"], "note": "The property is violated by the code (two witnesses: arbitrary choice among finished tasks, and a parent update that carries an older render of a child even with prompt delivery). C28_serial_partial: holds if renders do not interleave and updates are applied in order of completion."},
  {"property": "C29", "status": "proved", "theorems": ["C29_in_order", "C29_drains"], "note": "All capacities, all interleavings of deliveries, processing steps, handler outcomes and registry changes. C29_drains needs that no handler of the target let a BaseException escape (see C33)."},
  {"property": "C30", "status": "partial", "theorems": ["C30_overtaking_refuted", "C30_full_queue_partial"], "note": "Violated by the code (asyncio.Queue lets a new put take the place freed for a waiting one). Proved: no event is lost or duplicated with a full queue, and the order is kept if no event arrives between waking and running of a waiting put."},
  {"property": "C31", "status": "proved", "theorems": ["C31_recorded", "C31_monotone", "C31_attached", "C31_no_attributes_refuted"], "note": "C31_no_attributes_refuted records that an input element whose only attributes are event handlers gets no number at all."},
  {"property": "C32", "status": "partial", "theorems": ["C32_ack_before_handler_refuted", "C32_earlier_events_partial"], "note": "Violated by the code (recorded before the handler runs). Proved: with increasing client numbers and no full queue, all events with a smaller number are completed and the acknowledged one has been taken up."},
  {"property": "C33", "status": "partial", "theorems": ["C33_targets_independent", "C33_skipped", "C33_escape_refuted"], "note": "Proved for handlers that raise an Exception and for events without handler. Refuted for a handler out of which another BaseException escapes (e.g. CancelledError): the target's later events are never processed."},
  {"property": "C34", "status": "proved", "theorems": ["C34_merge", "C34_functions"], "note": "Calls are modelled as the list of (function, data) calls; how the functions of a merged handler run side by side, and how a failing one cuts others short, is C100."},
  {"property": "C35", "status": "proved", "theorems": ["C35_inspection", "C35_reported_is_stored", "C35_handler_options", "C35_unresolvable_later_refuted", "C35_reassigned_default_refuted", "C35_two_literals_refuted", "C35_no_code_refuted", "C35_method_refuted"], "note": "Inspection reports exactly the direct uses on the first argument and the first assignment's static value (all instruction lists). For branch-free single-assignment code the reported value is the one stored at run time. Findings: a later unresolvable assignment, a reassigned parameter, a second literal; callables without __code__ raise; bound methods are not detected."},
  {"property": "C36", "status": "partial", "theorems": ["C36_queue", "C36_delivered", "C36_once", "C36_close", "C36_order_partial", "C36_order_refuted"], "note": "Coalescing, bound, conservation, delivery, and one return per request (as seen from outside) proved for every interleaving; the order is not kept in general when the queue is full (refuted), and is kept under the stated guard. put is modelled as atomic."},
  {"property": "C37", "status": "partial", "theorems": ["C37_partition", "C37_exactly_one", "C37_custom_refuted"], "note": "Proved for constructors without a custom constructor (all HTML/SVG elements but script and fragment), for all attribute mappings. Refuted for script/fragment: inline JavaScript attributes are dropped silently."},
  {"property": "C38", "status": "proved", "theorems": ["C38_flatten", "C38_attributes"], "note": ""},
  {"property": "C39", "status": "proved", "theorems": ["C39_keys", "C39_setitem", "C39_init", "C39_other_mutators_refuted"], "note": "For construction and item assignment, as stated. Finding: dict.update and del are not overridden and break both guarantees."},
  {"property": "C40", "status": "proved", "theorems": ["C40_void", "C40_void_html", "C40_fragment", "C40_script", "C40_script_key", "C40_svg_text_refuted", "C40_void_svg"], "note": "Finding: SVG text elements are declared childless."},
  {"property": "C41", "status": "proved", "theorems": ["C41_valid", "C41_negative_refuted"], "note": "Against a general checker for the schema's keywords and the published schema as data; attribute values and import sources simplified as documented. The hypothesis is needed: negative rate limits pass through."},
  {"property": "C42", "status": "proved", "theorems": ["C42_roundtrip", "C42_none_refuted"], "note": "HtmlModel.v. For every VDOM tree the conversion accepts. C42_none_refuted: a None child is written as the text 'None'."},
  {"property": "C43", "status": "proved", "theorems": ["C43_parse", "C43_roundtrip", "C43_vendor_refuted", "C43_custom_property_refuted", "C43_semicolon_refuted"], "note": "HtmlAttrs.v. ASCII case mapping. Findings: vendor prefixes lose their leading dash, custom properties are renamed, ';' inside url() splits a declaration."},
  {"property": "C44", "status": "proved", "theorems": ["C44_known", "C44_special", "C44_other", "C44_idempotent", "C44_values"], "note": "HtmlAttrs.v."},
  {"property": "C45", "status": "proved", "theorems": ["C45_select", "C45_select_fails", "C45_textarea", "C45_input", "C45_empty_option_refuted"], "note": "HtmlModel.v. C45_select_fails and C45_empty_option_refuted are the finding named in the property."},
  {"property": "C46", "status": "partial", "theorems": ["C46_set", "C46_unset", "C46_accepting", "C46_reachable", "C46_immutable", "C46_child_rejects_refuted", "C46_reentrant_refuted", "C46_subscribe", "C46_follows"], "note": "OptionModel.v. Proved for subscribers that do not raise or set options (besides child options). Refuted beyond: if a child rejects the value the call raises although the parent changed; if a subscriber sets the option again a child keeps an outdated value."},
  {"property": "C47", "status": "partial", "theorems": ["C47_no_parent", "C47_parent_refuted", "C47_reload"], "note": "OptionModel.v. Holds for options without a parent, refuted with a parent."},
  {"property": "C48", "status": "partial", "theorems": ["C48_set_default", "C48_default_refuted"], "note": "OptionModel.v. Holds unless the given object is the default itself, then AttributeError."},
  {"property": "C49", "status": "partial", "theorems": ["C49_same_directory", "C49_parents", "C49_absolute", "C49_other", "C49_loop_partial", "C49_loop_refuted", "C49_query_refuted", "C49_host_refuted"], "note": "normalize_url_path is exact for './', '../', absolute and full references. Refuted: the loop resolves later references against earlier ones; base URLs with '/' in the query; scheme-relative references."},
  {"property": "C50", "status": "partial", "theorems": ["C50_exact", "C50_negative_refuted", "C50_bare_refuted"], "note": "Exact up to the depth for every module graph, with the source scanner as a parameter (see C72). Refuted: with a negative depth a cyclic graph is followed for ever; a bare module name referenced by a module at a URL raises an exception."},
  {"property": "C51", "status": "proved", "theorems": ["C51_rejects", "C51_constructors"], "note": ""},
  {"property": "C52", "status": "partial", "theorems": ["C52_key_injective", "C52_content_partial", "C52_stale_refuted", "C52_overwrite_refuted"], "note": "Right when calls with one name have one content; refuted otherwise (finding)."},
  {"property": "C53", "status": "partial", "theorems": ["C53_atomic", "C53_others", "C53_string_end", "C53_string_refuted", "C53_string_same_refuted", "C53_fallback_refuted", "C53_symlink_refuted", "C53_fallback", "C53_symlink"], "note": "copy_file without symlink is atomic at every crash point; string_to_module, the Windows fallback and the symlink branch are not (findings)."},
  {"property": "C54", "status": "proved", "theorems": ["C54_exclusive", "C54_progress", "C54_timeout", "C54_killed_refuted"], "note": "Includes the finding: after a process is killed inside, nobody enters again. The lock file is touched only by file_lock, and its unlink succeeds."},
  {"property": "C55", "status": "proved", "theorems": ["C55_image", "C55_unique", "C55_padding"], "note": "Text values are given by their UTF-8 bytes; b64encode is modelled by RFC 4648 and checked against a decoder by bits."},
  {"property": "C56", "status": "proved", "theorems": ["C56_linked"], "note": "For every cast function, which may raise, and every event sequence; the state update is modelled by its effect at the next render (C14)."},
  {"property": "C57", "status": "partial", "theorems": ["C57_routing", "C57_dot_refuted", "C57_alternative_refuted"], "note": "For prefixes without a dot or other special characters of regular expressions, and any matcher for user routes. Refuted: the prefix is not escaped; a route with alternatives is anchored wrongly (findings)."},
  {"property": "C58", "status": "proved", "theorems": ["C58_registered", "C58_unique", "C58_only"], "note": "C58_only holds for prefixes with dots as well."},
  {"property": "C59", "status": "proved", "theorems": ["C59_update", "C59_root", "C59_history"], "note": "The client's JSON model is the encoding of what DisplaySpec's client holds, for every history of applicable updates; the encoding of attribute values is a parameter."},
  {"property": "C60", "status": "partial", "theorems": ["C60_nested", "C60_root_partial", "C60_error_refuted"], "note": "Nested updates are exact; a root update is exact if the new model has every key of the old one; refuted otherwise (finding)."},
  {"property": "C61", "status": "partial", "theorems": ["C61_throttle_partial", "C61_overdue_refuted", "C61_render_refuted"], "note": "For one wrapper, if no call comes while its timer is overdue. Refuted for overdue timers and for re-rendered elements (findings)."},
  {"property": "C62", "status": "partial", "theorems": ["C62_debounce", "C62_render_refuted"], "note": "Proved for one wrapper and every timing; refuted across renders, each of which makes a new wrapper (finding)."},
  {"property": "C63", "status": "proved", "theorems": ["C63_backoff", "C63_retries", "C63_increasing", "C63_first_refuted"], "note": "Rational numbers instead of floating point; multiplier at least 1 and interval at most the maximum. C63_first_refuted records that a failed first attempt is not retried."},
  {"property": "C64", "status": "proved", "theorems": ["C64_queue"], "note": "Sent means given to an open socket; the state of the socket does not change during the loop of onOpen."},
  {"property": "C65", "status": "partial", "theorems": ["C65_partial", "C65_stale_refuted"], "note": "All events but at most one were processed; refuted for the last one (finding)."},
  {"property": "C66", "status": "partial", "theorems": ["C66_rewrite", "C66_names", "C66_names_twice", "C66_twice_partial", "C66_twice_refuted", "C66_keyword_refuted", "C66_collision_refuted", "C66_call_refuted", "C66_any_call_refuted"], "note": "Names, order, count and values for every attribute expression; names are never converted twice. A second run changes nothing unless a name other than 'style' becomes 'style' (refuted without that guard). Findings: a keyword argument may become a Python keyword, two names may collide, keyword arguments of any function that makes the style are renamed, and the first dictionary of any call of a bare name is taken for attributes. Text (ast.unparse) is not modelled."},
  {"property": "C67", "status": "partial", "theorems": ["C67_keep", "C67_one", "C67_adjacent_refuted", "C67_wrong_refuted"], "note": "Exact without deletion for every log; with deletion exact if at most one record matches; both ways in which it fails otherwise (skipped match, wrong record removed) are shown on witnesses. For every log in which it fails: C103."},
  {"property": "C68", "status": "partial", "theorems": ["C68_listed", "C68_complete", "C68_sound", "C68_inside_partial", "C68_record_refuted", "C68_absolute_refuted", "C68_other_record_refuted"], "note": "RECORD lists every member; nothing is left out or made up. Members stay inside the archive if the files named RECORD and WHEEL do; refuted otherwise, since the record's own name is not checked."},
  {"property": "C69", "status": "partial", "theorems": ["C69_lines_partial", "C69_docstring", "C69_hash_refuted", "C69_argument_refuted", "C69_blank_refuted", "C69_body_refuted"], "note": "A docstring that begins a line is removed and nothing else. For every text without double quotes the result is exactly the non-blank lines without comments and trailing white space. The meaning is lost for '#' in literals, triple-quoted arguments, blank lines in literals and docstring-only bodies."},
  {"property": "C70", "status": "partial", "theorems": ["C44_roundtrip", "C70_names_partial", "C70_names_refuted", "C70_false_refuted", "C70_initial_refuted", "C70_callable"], "note": "HtmlAttrs.v, HtmlModel.v. Proved: all attributes of a table of HTML's attributes, and data-/aria- attributes, are written under their HTML names, each once, with their values, and nothing else is; the reading direction; an attribute that is a callable is refused. className, htmlFor, initial values of form elements and False attributes are refuted."},
  {"property": "C71", "status": "proved", "theorems": ["C71_key"], "note": "HtmlModel.v."},
  {"property": "C72", "status": "partial", "theorems": ["C72_names_partial", "C72_exclude_default", "C72_destructuring_refuted", "C72_renaming_refuted", "C72_const_list_refuted", "C72_let_comma_refuted", "C72_var_refuted", "C72_multiline_refuted", "C72_comment_refuted"], "note": "Exact for sources that follow the grammar source_ok; refuted for the other forms (findings)."},
  {"property": "C73", "status": "partial", "theorems": ["C73_directory", "C73_text_first", "C73_directory_refuted", "C54_directory_refuted", "C54_progress"], "note": "Refuted: from file calls alone no directory is ever made, so every name in one fails (C73_directory_refuted, and C54_directory_refuted for the lock under all interleavings). When the directory is there, as after component_from_string, the call succeeds."},
  {"property": "C74", "status": "partial", "theorems": ["C74_ends_partial", "C74_alive_partial", "C74_dead_refuted", "C74_reached"], "note": "Refuted when the dispatcher failed and the queue is full. C74_ends_partial (Serving.v, see C101): for every session at work whose events have targets, in every schedule, a disconnect that came ends the connection after finitely many steps. C74_alive_partial is about a smaller model of the same loop."},
  {"property": "C75", "status": "partial", "theorems": ["C75_conditional", "C75_length_partial", "C75_length_refuted"], "note": "The length is right for ASCII pages; refuted otherwise. Whether asgi_tools corrects the header is not modelled."},
  {"property": "C76", "status": "partial", "theorems": ["C76_sound", "C76_complete", "C76_terminates", "C76_selection", "C76_depth_partial", "C76_files_refuted", "C76_names_refuted", "C76_items_refuted"], "note": "Soundness, completeness (within the depth limit, for objects whose specially read properties can be read) and termination are proved for every heap. The depth limit holds without properties called files, and is exceeded by at most two if they are not nested; with nested ones it does not hold at all (files_refuted). Upper-case names and null items are lost (names_refuted, items_refuted)."},
  {"property": "C77", "status": "partial", "theorems": ["C77_apart_partial", "C77_separate_partial", "C77_settled_partial", "C77_removed_refuted", "C77_stray_refuted"], "note": "Proved for every program and every schedule in which renders overlap only in separate parts of the tree (neither component within the other) and none starts for a component removed or rendered again since the request (only removed, if state changes come between renders); then the display is what the program gives also while renders are in progress. Missing: renders one of which is within the other; refuted in general, by schedules in the order of the event loop."},
  {"property": "C78", "status": "partial", "theorems": ["C78_locks", "C78_progress", "C78_finish", "C78_error_refuted", "C78_leak_refuted"], "note": "Locks, absence of deadlock and termination proved for every program (termination: components do not nest without end) and every schedule; that nothing stays mounted and no error is reported is refuted by schedules in the order of the event loop."},
  {"property": "C79", "status": "proved", "theorems": ["C79_location", "C79_parameters", "C79_malformed"], "note": "Texts are UTF-8 bytes. The path is the browser's pathname, so it keeps its percent-encoding. A rejected query raises ValueError in the dispatcher, which logs it."},
  {"property": "C80", "status": "partial", "theorems": ["C80_meaning_partial", "C80_complete", "C80_component_refuted", "C80_builtin_refuted", "C80_unrelated_refuted"], "note": "Meaning kept for every expression in which each bare name that is called is an element constructor (evaluation in an arbitrary algebra). Without that guard it is refuted: every call of a bare name is taken for an element constructor, so a component's key becomes a positional dictionary, max(..., key=f) loses its key, and other calls without arguments get an empty dictionary. Attributes made by dict(...) are covered by C80_complete only. How the text is written back: C81."},
  {"property": "C81", "status": "partial", "theorems": ["C81_lines", "C81_no_failure", "C81_bytes_refuted", "C81_tab_refuted", "C81_comment_refuted", "C81_same_line_refuted", "C81_decorator_refuted"], "note": "C81_lines: for every text, list of changed calls with nested positions and comment finder; the text around a node is kept if it is in one-byte characters and indented with spaces. Findings (refuted without these guards): columns count bytes but are used for characters, so text after a non-ASCII character is lost; tabs become single spaces; a comment behind a one-line function takes the body out of the function; of two statements on a line only the first is rewritten; decorators of async functions are doubled. ast.unparse and the tokenizer are not modelled."},
  {"property": "C82", "status": "proved", "theorems": ["C82_page", "C82_shown", "C82_throw_refuted"], "note": "For modules whose bind function does not throw, as the statement says; C82_throw_refuted shows why: after a throw the unmounted binding is used again."},
  {"property": "C83", "status": "partial", "theorems": ["C83_shown", "C83_react", "C83_clean_partial", "C83_removed", "C83_twice_refuted", "C83_leak_refuted", "C83_wrong_module_refuted", "C83_fallback_refuted"], "note": "Proved: the latest model is shown at rest, the React bindings are used properly, nothing is called after removal. False of the code: each first display binds the module twice and renders with the unmounted first binding; removal before the second load ends leaves content mounted (C83_clean_partial is for removal at rest); a model may be rendered by the old module's binding; the fallback is never shown."},
  {"property": "C84", "status": "partial", "theorems": ["C84_tree", "C84_calls", "C84_methods", "C84_plain_refuted", "C84_debounce_refuted", "C84_error_refuted", "C84_ack_refuted"], "note": "Proved for every tree and every call whose arguments are events or whose handler has neither option. False of the code: with prevent_default or stop_propagation a call with any other argument sends nothing; debounce and throttle are ignored inside imported components; errors of components inside them are not shown; the internal _reactpy_ack_seq reaches them as a property."},
  {"property": "C85", "status": "partial", "theorems": ["C85_shown_partial", "C85_steady_partial", "C85_stale_refuted", "C85_added_refuted", "C85_false_refuted", "C85_label_refuted", "C85_style_refuted", "C85_ignored_refuted"], "note": "Shown: for models with ordinary attributes (no False, no camel-case names, styles as dicts) the page is right after every history. Events: proved while elements and handlers stay in place or come and go at the end; refuted otherwise, because listeners belong to the reused element and not to the model. Also refuted: False attributes, htmlFor, style text, import sources, inline scripts, errors, preventDefault and stopPropagation. morphdom is a library outside /repo: modelled from its algorithm for elements without id."},
  {"property": "C86", "status": "partial", "theorems": ["C86_program", "C86_root", "C86_page", "C86_literal_refuted", "C86_tab_refuted", "C86_annotated_refuted", "C86_comment_refuted", "C86_script_refuted", "C86_colour_refuted"], "note": "Proved of the text of the program, its acceptance and its place in the page; what Python does with the text is not modelled. Refuted: literals that span lines or contain tabs or '#' change; an annotated root component is refused and a comment is taken for one; '</script>' in the code ends it early."},
  {"property": "C87", "status": "partial", "theorems": ["C87_config", "C87_attribute_partial", "C87_packages_refuted", "C87_modules_refuted", "C87_quote_refuted"], "note": "Proved for configurations that do not set packages or js_modules themselves and texts without single quotes. Refuted: packages or js_modules in the user's configuration replace those ReactPy needs; a single quote in a value ends the attribute."},
  {"property": "C88", "status": "partial", "theorems": ["C88_started", "C88_kept", "C88_reconnect", "C88_clean_partial", "C88_leak_refuted", "C88_rerender_refuted"], "note": "Start and protection are proved for every history. Refuted: the program imports the handler class from the package, whose globals() are not the page's, so no component is ever stopped or deleted (C88_clean_partial: it would be, without that import); each render of the parent makes a new id and so restarts the component."},
  {"property": "C89", "status": "partial", "theorems": ["C89_tag", "C89_standalone", "C89_reconnection_partial", "C89_import_map_partial", "C89_same_prefix_partial", "C89_root_prefix_refuted", "C89_zero_refuted", "C89_letters_refuted", "C89_two_applications_refuted", "C89_accepted"], "note": "Guards: the prefix consists of letters, digits and _-~/, begins with one slash (C89_tag, C89_standalone); for the import map it is also not '/' and does not end with two slashes; reconnection settings are not zero. The refutations show that the last guards are needed, that names with non-ASCII letters are never served, and that the page of an application uses the prefix of the application created last. The text of the page is read by a small independent reader of script elements and JavaScript tokens; the browser's full grammars are not modelled."},
  {"property": "C90", "status": "partial", "theorems": ["C90_settings", "C90_order", "C90_refused_partial", "C90_atomic_refuted", "C90_order_refuted", "C90_timeout_refuted", "C90_switches"], "note": "Proved for settings that are not for the same option (names differ after upper-casing) and do not combine debug with one of its checks; C90_order_refuted shows why. After a refusal the earlier settings stay applied (C90_atomic_refuted), the refused one and the later ones are not (C90_refused_partial). Subscribers of options are assumed not to raise or set options."},
  {"property": "C91", "status": "partial", "theorems": ["C91_delivery", "C91_all_called", "C91_users", "C91_no_update_lost", "C91_open_stays", "C91_module_context_refuted", "C91_one_registration_refuted", "C91_failing_handler_refuted", "C91_inherited_refuted"], "note": "Delivery is exact: all listening handlers up to the first that throws. The page theorem is for one root, mounted once. The refuted theorems show: a throwing handler stops later ones, ending one of two registrations of a handler ends both, types that name inherited properties throw, and a module's bind cannot use the methods it is given."},
  {"property": "C92", "status": "partial", "theorems": ["C92_shown", "C92_confined", "C92_key", "C92_unnamed_refuted", "C92_argument_refuted", "C92_refused", "C92_text"], "note": "Proved for components with a named function and printable arguments, and in debug mode exceptions whose text is available; the refuted theorems show that the first two are needed. One render of a tree, children one after the other; states and effects of the layout are in C01-C20."},
  {"property": "C93", "status": "partial", "theorems": ["C93_browser_partial", "C93_pyscript_partial", "C93_failed_root_refuted"], "note": "Guards: mild failures only (C01), and for the browser the root's model never carries an error; the refuted theorem shows that the latter is needed. For components in the browser: attributes as in C85, listeners apart. Messages are numbered, the JSON texts are not modelled, and a connection delivers in order."},
  {"property": "C94", "status": "partial", "theorems": ["C94_runs", "C94_meaning", "C94_data", "C94_missing", "C94_merged", "C94_merged_ends", "C94_lambda_refuted", "C94_generator_refuted", "C94_items_refuted"], "note": "Proved for def and async def functions that return nothing to be awaited, and for names that are no attributes of dictionaries; the refuted theorems show that both guards are needed. Cancelled tasks of a merged handler end at once (clean-up code in them is not modelled). Callables without a code object are refused (C35)."},
  {"property": "C95", "status": "partial", "theorems": ["C95_own", "C95_under", "C95_unbroken", "C95_outside", "C95_idle", "C95_started_refuted", "C95_thread_refuted"], "note": "Proved for the context variable, which the code uses. A task that a component's body starts shares the render's list (C95_started_refuted); the thread-local variant, which the code has but does not use, mixes renders up (C95_thread_refuted)."},
  {"property": "C96", "status": "partial", "theorems": ["C96_leaves_partial", "C96_root_refuted", "C96_twice_refuted", "C96_several_refuted", "C96_size_refuted", "C96_late_refuted", "C96_failed_refuted", "C96_catch_refuted"], "note": "C96_leaves_partial: leaving when no render is under way and at most one is requested, with nothing changing a state meanwhile and no handler catching the cancellation. The refuted theorems show what happens without each guard. C04 has leaving with serial rendering between renders."},
  {"property": "C97", "status": "proved", "theorems": ["C97_renders", "C97_renders_refuted", "C97_entry_refuted", "C97_targets", "C97_events_refuted"], "note": "The bounds, and the findings that they are reached, are both part of the statement. The registry of components and the handlers are exact (C05, C06, C77)."},
  {"property": "C98", "status": "partial", "theorems": ["C98_version", "C98_current_partial", "C98_built_once", "C98_refused", "C98_installed_partial", "C98_crash", "C98_removed_refuted", "C98_moved_refuted", "C98_tick_refuted", "C98_during_refuted", "C98_installed_refuted", "C98_left_refuted", "C98_spelling_refuted", "C98_two_refuted"], "note": "False in general: staleness is decided by modification times, so a page gets an outdated wheel for good after a source was removed, replaced by an older file, or changed in the tick in which the wheel was written or while it was built; a wheel left in dist whose name comes first is taken for the new one; an installed package that is replaced by one of the same version keeps its wheel; a version that is not spelled as PEP 440 wants is never found; two processes at once leave an incomplete wheel, and one of them fails. Proved under the guard that excludes these. Not modelled: Hatch itself, the zip format."},
  {"property": "C99", "status": "partial", "theorems": ["C99_component", "C99_fallback", "C99_sources", "C99_file_partial", "C99_symlink_partial", "C99_text_partial", "C99_unnamed", "C99_npm_address", "C99_npm_distinct", "C99_extension_partial", "C99_fallback_refuted", "C99_edited_refuted", "C99_flags_refuted", "C99_name_refuted", "C99_chdir_refuted", "C99_symlink_refuted", "C99_write_refuted", "C99_query_refuted", "C99_extension_refuted"], "note": "False in general: a component without a placeholder gets that of the first call for its module; within a process an edited file, or another file under the same name, is not loaded, but with other flags it replaces the file of the earlier components; a relative path is remembered across a change of directory; no link is made where an equal copy is left; a text goes to the place of a removed source file through a link; a name with ? or # can not be loaded, and the end of a name after a dot becomes the extension. Names, sources and flags of the components are right unconditionally, the rest under the guard that excludes these; without names only colliding digests are excluded. One call is one step: for concurrency see C53 and C54."}
]}
