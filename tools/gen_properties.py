"""Regenerates /verif/properties.jsonl (one JSON object per property)."""
import json, pathlib

P = []
def add(id, title, statement, quantifier, why, anchors):
    P.append(dict(id=id, title=title, statement=statement, quantifier=quantifier,
                  why_tests_cant=why, anchors=anchors))

L = "src/reactpy/core/layout.py"
H = "src/reactpy/core/hooks.py"
LH = "src/reactpy/core/_life_cycle_hook.py"
EV = "src/reactpy/core/events.py"
VD = "src/reactpy/core/vdom.py"
UT = "src/reactpy/utils.py"
TR = "src/reactpy/transforms.py"
JSU = "src/reactpy/reactjs/utils.py"
JSM = "src/reactpy/reactjs/module.py"
CL = "src/js/packages/@reactpy/client/src/"

# ---------------------------------------------------------------- layout, serial rendering
add("C01", "At quiescence the displayed UI is a function of the state",
    "With serial rendering, when render failures have occurred only in render functions of components that had until then shown nothing but texts and elements without child components and event handlers, "
    "and no re-render is pending, every mounted component's part of the model held by a client that applied all `layout.render()` updates equals "
    "what that component's render function returns on its current hook state, props and context, expanded recursively, or, if its last render failed, "
    "an empty node carrying the text of that error (empty outside debug mode).",
    "every component program, every sequence of set_state calls (also interleaved at every await inside a render) and render() calls",
    "Depends on every interleaving of set_state calls with renders of every tree; tests sample a few.",
    [L+":Layout.render,_serial_render,_create_layout_update,_render_component,_render_model,_render_model_children", LH+":schedule_render"])
add("C02", "A client applying update messages mirrors the server model",
    "Applying each `layout-update` message (set `model` at JSON-pointer `path`, replace all at the empty path) to the client's "
    "previous model always gives exactly the full model of the server's current component tree; the path always exists in the client's model.",
    "every component program and every history of serial renders in which a render function fails only in a component that until then has shown nothing but texts and elements without child components and event handlers",
    "Paths depend on every sequence of insertions, removals and reorderings before the update.",
    [L+":_create_layout_update,_make_component_model_state,_update_component_model_state,_update_element_model_state", "src/reactpy/executors/pyscript/layout_handler.py:update_model"])
add("C03", "Keyed identity: state follows (key, type) under the same parent",
    "When a component re-renders, a child position whose key was present before under the same parent node keeps its identity (hook state) exactly when "
    "both old and new are components of the same type; elements keep identity when both are elements; otherwise the new component starts with fresh state.",
    "every old tree, every new render output; render functions may fail in components that until then have shown nothing but texts and elements without child components and event handlers",
    "Ranges over all reorderings / insertions / type switches of arbitrary trees.",
    [L+":_render_component,_render_model,_render_model_children,_get_children_info"])
add("C04", "Every component that leaves the tree is unmounted exactly once, and all are on exit",
    "During a render the unmount life-cycle call happens exactly once for every component instance present before and absent afterwards and for no other; "
    "leaving the layout context unmounts every component instance still mounted exactly once; no instance is ever unmounted twice or rendered after being unmounted.",
    "every component program and history of serial renders in which a render function fails only in a component that until then has shown nothing but texts and elements without child components and event handlers, ended by layout exit",
    "Exactly-once over all histories.",
    [L+":_unmount_model_states,Layout.__aexit__"])
add("C05", "No component leaks: the set of re-renderable components is the set of displayed ones",
    "After any history in which a render function fails only in a component that until then has shown nothing but texts and elements without child components and event handlers, a component instance reacts to set_state (its render is not skipped as 'already unmounted') "
    "iff it occurs in the current tree. If a component with children raises in a re-render, this fails: the previously mounted children are never unmounted (finding).",
    "every component program and history of serial renders",
    "A leak is invisible to single-render tests.",
    [L+":_model_states_by_life_cycle_state_id,_render_component,_unmount_model_states"])
add("C06", "Every event target in the displayed model reaches exactly the handler of the latest render",
    "With auto-generated targets and well-formed keys, after any history in which a render function fails only in a component that until then has shown nothing but texts and elements without child components and event handlers, the registered event targets are exactly the targets that occur in "
    "the current model, and each is bound to the handler the owning element got in the latest render. With user-chosen targets it fails: "
    "changing an element's static target leaves the old one registered (finding).",
    "every component program and history of serial renders",
    "Registry contents depend on the whole history of registrations and removals.",
    [L+":_render_model_attributes,_render_model_event_handlers_without_old_state,_unmount_model_states"])
add("C07", "Auto-generated event targets of different handlers never collide",
    "Two different (element, event) pairs of one tree have different auto-generated targets provided keys contain no '/', event names no ':' and no "
    "sibling string key spells a sibling's integer key. Without the proviso collisions exist (finding).",
    "all pairs of key paths and event names",
    "Universally quantified string injectivity.",
    [L+":_make_element_model_state,_update_element_model_state,_render_model_attributes"])
add("C08", "Duplicate sibling keys are always detected, distinct keys never rejected",
    "Rendering a children list raises the duplicate-keys error iff two non-None children have equal effective keys (explicit key, else position); "
    "then the enclosing component shows an error node and nothing of that list is displayed.",
    "every children list", "All lists, all key combinations.",
    [L+":_get_children_info,_render_model_children"])
add("C09", "A failing component is replaced by an error node and nothing else changes",
    "On first mount of any tree, in which arbitrary components raise, the emitted model is the expansion of the tree in which exactly the nearest enclosing component "
    "of each failure is an error node; the message is included iff debug mode is on; siblings and ancestors are unaffected.",
    "every tree of components, every subset of which raise", "All failure patterns.",
    [L+":_render_component"])
add("C10", "None children neither display nor shift their siblings' identity",
    "Replacing any child by None (or back) leaves the effective keys of all other children unchanged, hence their state and their event targets; "
    "None children contribute nothing to the displayed children, which keep their order.",
    "every children list and position", "All lists.",
    [L+":_get_children_info"])
add("C11", "Render requests are coalesced and never lost (serial mode)",
    "Any number of state changes of one component before its next render cause one queue entry; a state change after the component's last render always leaves "
    "a render of it pending until it is rendered again or unmounted.",
    "every history of set_state/render, with render functions that may fail in components that until then have shown nothing but texts and elements without child components and event handlers", "All interleavings.",
    [LH+":schedule_render,affect_component_will_render", L+":_schedule_render_task,_ThreadSafeQueue"])
add("C12", "use_context returns the nearest enclosing provider's current value",
    "In every render (initial, by ancestor, or standalone) `use_context(c)` returns the value of the nearest ancestor provider of c in the current tree, else c's default.",
    "every tree, every nesting of providers, every history of serial renders in which a render function fails only in a component that until then has shown nothing but texts and elements without child components and event handlers", "All nestings and histories of standalone re-renders.",
    [LH+":set_current,get_context_provider,set_context_provider", H+":use_context", "src/reactpy/types.py:ContextProvider.render"])
add("C13", "Effects start only after the whole layout render, last rendered component first",
    "Effect tasks of a render pass are created only after every component of the pass has rendered, in the reverse of the order the components rendered, each component once per its render, whether the render succeeded or failed. The effects started are exactly those the render registered, in that order, and none is left over.",
    "every component program and render pass", "All trees.",
    [L+":_create_layout_update", LH+":affect_layout_did_render"])
# ---------------------------------------------------------------- hooks
add("C14", "use_state is a fold over the dispatched updates",
    "After the first render, at every later render the value returned by a use_state call is the left fold of all updates dispatched to it so far over its initial value "
    "(an update equal to the current value leaves it untouched); a render is requested by exactly those dispatches which change the value.",
    "every initial value, every sequence of plain or functional updates and renders", "Unbounded histories.",
    [H+":use_state,_CurrentState"])
add("C15", "Hook state slots are independent and positional",
    "Dispatching to one state never changes any other hook value of any component, and on each re-render the i-th hook call gets the i-th slot.",
    "every component with any number of hooks, every history", "All pairs of slots, all histories.",
    [LH+":LifeCycleHook.use_state", H+":_use_const"])
add("C16", "use_reducer folds the reducer given at first render over the actions",
    "The state of use_reducer is the left fold of the first render's reducer over the dispatched actions; reducers passed on later renders are ignored; the dispatch function is the same object on every render.",
    "every reducer and action sequence", "Unbounded histories.", [H+":use_reducer,_create_dispatcher"])
add("C17", "use_memo recomputes exactly when the dependencies changed",
    "For every sequence of renders in which the memo function never raises, use_memo runs the function iff first render, dependencies None, or the dependencies differ (length or some strictly-unequal item) "
    "from those of the last call (None counts as the empty sequence); otherwise it returns the last computed value.",
    "every sequence of dependency lists and functions", "Unbounded histories.", [H+":use_memo,_Memo"])
add("C18", "A memoized value always belongs to the current dependencies",
    "The value returned by use_memo was computed in a render with the current dependencies. Violated after the memo function raises: the new dependencies are already stored, so "
    "the next render with them returns the old value (finding).",
    "every sequence of renders including raising memo functions", "Needs a specific failure history.", [H+":use_memo"])
add("C19", "use_ref and use_callback preserve identity",
    "use_ref returns the same object in every render of a component; use_callback returns the function of the latest render in which the dependencies changed.",
    "every sequence of renders", "Unbounded histories.", [H+":use_ref,use_callback"])
add("C20", "A component recovers after a failed render",
    "If a component's re-render raises, the next render sees the same hook slots. If its very first render raises before all its hooks ran, later renders raise IndexError forever (finding).",
    "every component and failure point", "All failure points.", [LH+":use_state,affect_component_did_render"])
add("C21", "Effect runs and their clean-ups alternate",
    "For each use_effect call of a component, in every schedule the observable sequence is run, cleanup, run, cleanup, ...: the clean-up returned by a run is called exactly once and before the next run of that effect starts.",
    "every number of dependency changes, every interleaving of effect tasks, renders and unmount, effect functions and clean-ups that do not raise", "All schedules.",
    [H+":use_effect,run_effect_cleanup", LH+":affect_layout_did_render,affect_component_will_unmount"])
add("C22", "After unmount every effect has been cleaned up exactly once",
    "When the unmount of a component completes, every effect that ran has had its clean-up called exactly once and no effect task is left. If a clean-up raises it can be called a second time (finding).",
    "every component, every schedule", "All schedules.", [H+":use_effect,run_effect_cleanup", LH+":affect_component_will_unmount"])
add("C23", "use_async_effect never runs two bodies of one effect at once and never loses a clean-up",
    "At most one un-shielded body of an effect runs at any time and each returned clean-up is called exactly once; nothing is cancelled or cleaned up before the dependencies change or the component is unmounted, and then everything ends. Violated: on the third dependency change the still running second body is not cancelled, and a clean-up can be overwritten without being called (finding).",
    "every schedule of dependency changes, completions and unmount", "Needs specific event-loop interleavings.", [H+":use_async_effect"])
add("C24", "strictly_equal decides change for state and dependencies",
    "strictly_equal is reflexive and symmetric on values with well-behaved ==, never relates values of different types, and coincides with == on non-function values. For local functions and lambdas it compares source only, so closures over different values are 'equal' (finding).",
    "all pairs of values", "All pairs.", [H+":strictly_equal"])
# ---------------------------------------------------------------- async rendering
add("C25", "At most one render of a component at a time (async rendering)",
    "In async rendering mode, in every schedule at most one task is inside the render of a given component instance.",
    "every component tree, every schedule of dispatches, task steps and cancellations", "All schedules.", [LH+":_render_access,affect_component_will_render,affect_component_did_render", L+":_render_component"])
add("C26", "No state change is lost (async rendering)",
    "In async rendering mode, when no render task is pending or running, every mounted component's last render used its latest state; however often a component changes between two of its renders, one render is requested.",
    "every component tree, every schedule", "All schedules.", [L+":_schedule_render_task,_render_component", LH+":schedule_render"])
add("C27", "Every scheduled render can be consumed (async rendering)",
    "The number of permits for `render()` always equals the number of unconsumed render tasks, so `render()` neither blocks while a finished task exists nor waits on an empty set.",
    "every schedule", "All schedules.", [L+":_parallel_render,_schedule_render_task"])
add("C28", "Updates are delivered in the order in which they were rendered (async rendering)",
    "The client never ends up displaying an older render of a component than the newest one. Violated: `_parallel_render` picks an arbitrary finished task, so a stale update can be delivered last (finding).",
    "every schedule", "Needs a specific schedule.", [L+":_parallel_render"])
# ---------------------------------------------------------------- events
add("C29", "Events of one target are handled one at a time, in arrival order, exactly once",
    "For each target, as long as its queue never fills, the handler invocations happen in the order of `deliver` calls, without overlap, each event exactly once (or dropped exactly when no handler is registered at any of its four lookups).",
    "every sequence of events on any targets, every schedule", "All schedules.", [L+":deliver,_process_event_queue"])
add("C30", "Arrival order is kept even when the event queue is full",
    "Events delivered while the target's queue is full are still handled in arrival order. Violated: asyncio.Queue lets a later put overtake a waiting one (finding).",
    "every queue size and schedule", "Needs a specific schedule.", [L+":deliver"])
add("C31", "Acknowledged sequence numbers are monotone and exact",
    "The recorded number of a target is the maximum of the non-negative integer `seq`s taken from its queue so far, never decreases, and the number attached to an input element is the maximum over its targets; other elements and other attributes are never touched.",
    "every sequence of events and renders", "Unbounded histories.", [L+":_process_event_queue,_inject_event_ack_seq"])
add("C32", "An acknowledged event has been processed",
    "When an element carries acknowledgement n the handlers of all its events up to n have completed. Violated: the number is recorded before the handler runs (finding).",
    "every schedule", "Needs a render between recording and handler completion.", [L+":_process_event_queue"])
add("C33", "A failing or missing handler never affects other events",
    "A raising handler or an event without handler is skipped and every other event on the same and on other targets is handled as if it had not been sent.",
    "every event sequence", "All sequences.", [L+":_process_event_queue"])
add("C34", "Merging event handlers is sound",
    "merge_event_handlers succeeds iff the list is non-empty and all handlers agree on the five options; the result has these options and calls every function once with the same data.",
    "every list of handlers", "All lists.", [EV+":merge_event_handlers,merge_event_handler_funcs"])
add("C35", "Event handler inspection detects what the bytecode does",
    "inspect_event_handler reports preventDefault/stopPropagation iff an attribute load of that name directly follows a load of the first argument (and the function takes an argument), and a debounce only when the first assignment to event.debounce has a statically known int. "
    "The documented promise that any unresolvable assignment makes the result None is violated when a literal assignment comes first (finding).",
    "every instruction sequence", "All functions.", ["src/reactpy/core/_event_inspect.py:inspect_event_handler,_resolve_debounce_value"])
add("C36", "The thread-safe render queue coalesces, keeps order, is bounded and loses nothing",
    "Values leave in order of their accepted puts, never two equal values are pending, at most the configured number is buffered, and a value put at any time is delivered by a later get unless the queue is closed.",
    "every sequence and interleaving of put/get/callback/close steps, every capacity", "All interleavings.", [L+":_ThreadSafeQueue"])
# ---------------------------------------------------------------- vdom
add("C37", "Element construction partitions attributes losslessly",
    "Every attribute given to an element constructor ends up in exactly one of attributes, eventHandlers, inlineJavaScript, by the documented rule, with its name and relative order kept.",
    "every attribute mapping", "All mappings.", [VD+":separate_attributes_handlers_and_inline_javascript"])
add("C38", "Children are flattened in order",
    "The children of an element are the left-to-right leaves of the nested iterables passed; strings and mappings are leaves; only a leading plain dict is taken as attributes.",
    "every nesting", "All nestings.", [VD+":separate_attributes_and_children,_flatten_children,_is_single_child"])
add("C39", "VDOM dictionaries only ever hold allowed keys and always a tag",
    "Every VdomDict obtained by construction followed by any sequence of item assignments has a tagName and only allowed keys; exactly the assignments with other keys raise.",
    "every sequence of constructions and assignments", "All sequences.", ["src/reactpy/types.py:VdomDict"])
add("C40", "Void elements, fragments and scripts reject what they must",
    "Tags declared childless raise iff children are given; fragments raise iff given an attribute other than key or an event handler; scripts raise iff given event handlers, more than one child or a non-string child; a script's key defaults to its content, then its src.",
    "every argument list", "All inputs.", ["src/reactpy/_html.py:_fragment,_script", VD+":Vdom.__call__"])
add("C41", "Every emitted model is valid against the published VDOM JSON schema",
    "Every model in a layout update conforms to VDOM_JSON_SCHEMA whenever handlers have non-negative debounce/throttle.",
    "every component program and history, including failing renders", "All models.", [VD+":VDOM_JSON_SCHEMA", L+":_serialize_event_handler,_render_component"])
# ---------------------------------------------------------------- html conversion
add("C42", "VDOM to HTML tree and back is the identity up to text merging",
    "Converting VDOM to an element tree and back gives the VDOM with fragments inlined, components rendered and adjacent texts merged (empty texts dropped).",
    "every VDOM tree", "All trees.", [UT+":_add_vdom_to_etree,_generate_vdom_children,component_to_vdom"])
add("C43", "Style strings and style dictionaries convert consistently",
    "Parsing a style string yields exactly its ';'-separated 'k:v' declarations with trimmed parts and camelCased names, later ones overriding; serialising a style dict and parsing it again restores it for camelCase names and values without ';'.",
    "every style string / dict", "All strings.", [TR+":normalize_style_attributes,_kebab_to_camel_case", UT+":_react_attribute_to_html"])
add("C44", "Attribute renaming is stable",
    "attributes_to_reactjs maps each known HTML attribute to its React name, leaves all others unchanged, and applying it twice equals applying it once on canonical output names.",
    "every attribute mapping", "All mappings.", [TR+":attributes_to_reactjs,REACT_PROP_SUBSTITUTIONS"])
add("C45", "Form elements parsed from HTML keep their values and selection",
    "Parsing <select> collects exactly the selected options in document order as defaultValue, removes `selected` everywhere; <textarea> text and <input value> become defaultValue. An <option> with attributes but no text raises KeyError (finding).",
    "every select/textarea/input tree", "All trees.", [TR+":select_element_to_reactjs,_parse_options,textarea_children_to_prop,input_element_value_prop_to_defaultValue"])
# ---------------------------------------------------------------- config
add("C46", "Options: validation, notification and inheritance",
    "Setting an option either fails leaving it unchanged or stores the validated value and notifies all subscribers exactly when it differs from the old; immutable options never change; a child option follows every later change of its parent.",
    "every sequence of option operations", "All sequences.", ["src/reactpy/_option.py:Option"])
add("C47", "The environment variable of an option decides its initial value",
    "An option whose environment variable is set starts with that value, and reload gives it the value of the variable at that moment, or its default if there is none. Violated at the start for options with a parent: subscribing to the parent immediately overwrites it (finding).",
    "every environment", "Depends on construction order.", ["src/reactpy/_option.py:Option.__init__,subscribe", "src/reactpy/config.py:REACTPY_CHECK_VDOM_SPEC"])
add("C48", "set_default returns the current value",
    "set_default(v) sets an unset option to v and returns the current value. Violated: set_default(default) raises AttributeError (finding).",
    "every option and value", "All values.", ["src/reactpy/_option.py:Option.set_default"])
# ---------------------------------------------------------------- js modules
add("C49", "Module references resolve relative to the referring module",
    "normalize_url_path resolves './', '../' and absolute references against the base URL. In resolve_names_from_url with several references it is violated: later references are resolved against the previous reference (finding).",
    "every base URL and reference list", "All inputs.", [JSU+":normalize_url_path,resolve_names_from_url"])
add("C50", "Export resolution terminates and is exact up to the depth limit",
    "For any (cyclic) module graph name resolution terminates after at most max_depth levels and returns exactly the names exported within that depth, 'default' only from the entry module.",
    "every module graph and depth", "Cyclic graphs of any size.", [JSU+":resolve_names_from_file"])
add("C51", "Importing an unknown name is always rejected",
    "module_to_vdom raises iff the names are resolved and some requested top-level name is missing; otherwise one constructor per name in order, carrying module source and fallback.",
    "every module and name list", "All inputs.", [JSM+":module_to_vdom,make_module"])
add("C52", "component_from_string returns a component of the given content",
    "Violated: the module cache is keyed by name and flags only, so a second call with the same name and different content returns the first content's module (finding). With distinct names the cache key is injective.",
    "every call history", "Needs a history.", ["src/reactpy/reactjs/__init__.py:component_from_string"])
add("C53", "Web module files are replaced atomically",
    "At every crash point of copy_file (POSIX, no symlink) the target holds either its complete old content or the complete new one. The fallback for Windows and symbolic links may leave it missing for a moment, but never incomplete, and the fallback has the complete new content in a file beside it. Violated for string_to_module: after the unlink the target is missing, empty or incomplete (finding).",
    "every crash point", "All crash points.", [JSU+":copy_file", JSM+":string_to_module"])
add("C54", "The module file lock is exclusive",
    "In every interleaving of processes at most one holds the lock file; a process that crashes while holding it blocks all others until timeout (finding).",
    "every number of processes and interleaving, every crash point", "All interleavings.", [JSU+":file_lock"])
# ---------------------------------------------------------------- widgets
add("C55", "image() embeds exactly the given bytes",
    "Decoding the base64 payload of the produced data URL gives back the value for every byte string; user attributes override src.",
    "every byte string", "All byte strings.", ["src/reactpy/widgets.py:image"])
add("C56", "Linked inputs always show the same value and report every change",
    "After any sequence of change events all inputs show the last event's value and on_change received the cast of every (non-empty, if ignore_empty) value in order.",
    "every event sequence", "All sequences.", ["src/reactpy/widgets.py:use_linked_inputs"])
# ---------------------------------------------------------------- asgi
add("C57", "Every request is served by exactly one application",
    "A request goes to the dispatcher iff it is a websocket on the dispatcher path, to static files / web modules iff http under those prefixes, else to the user's routes, else to the user's app.",
    "every scope", "All scopes.", ["src/reactpy/executors/asgi/middleware.py:ReactPyMiddleware.__call__", "src/reactpy/executors/asgi/standalone.py:match_extra_paths"])
add("C58", "Only registered components are ever served",
    "With multiple roots the dispatcher renders a component only if the dotted path of the URL is registered, and renders exactly that one.",
    "every URL path and registry", "All paths.", ["src/reactpy/executors/asgi/middleware.py:ReactPyWebsocket.run_dispatcher"])
# ---------------------------------------------------------------- clients
add("C59", "The PyScript client's model equals the last update",
    "update_model yields exactly the server model for root and nested updates, whatever was there before.",
    "every old model and update", "All models.", ["src/reactpy/executors/pyscript/layout_handler.py:update_model"])
add("C60", "The browser client's model equals the last root update",
    "Violated: a root update is merged with Object.assign, so a stale `error` (or other key) of the previous model survives (finding).",
    "every old model and update", "Needs failing then recovering root.", [CL+"components.tsx:Layout"])
add("C61", "Throttled handlers fire at most once per interval and never drop the last event",
    "Between two firings at least the interval elapses and the latest call's arguments are eventually fired.",
    "every call/time sequence", "All timings.", [CL+"components.tsx:throttleHandler"])
add("C62", "Debounced handlers fire once after activity stops with the latest arguments",
    "A firing happens exactly `delay` after a call not followed by another call within the delay, with that call's arguments.",
    "every call/time sequence", "All timings.", [CL+"components.tsx:debounceHandler"])
add("C63", "Reconnection backs off within its limits",
    "The waiting time never exceeds the maximum (if the base interval does not) and never decreases until a successful connection; at most maxRetries attempts are made in a row.",
    "every connection history", "All histories.", [CL+"websocket.ts:createReconnectingWebSocket,nextInterval"])
add("C64", "Messages sent while disconnected are delivered in order after reconnection",
    "Every message passed to sendMessage is sent exactly once, in order.",
    "every sequence of sends, disconnects and opens", "All histories.", [CL+"client.ts:ReactPyClient.sendMessage"])
add("C65", "A stale server value never overwrites newer user input",
    "The browser applies a server value to an input only when the server has processed every event sent so far. Violated: the wire sequence number is one higher than the number compared against, so the acknowledgement of the previous event passes the check (finding).",
    "every sequence of keystrokes and updates", "Needs a race.", [CL+"components.tsx:UserInputElement", CL+"vdom.tsx:createEventHandler"])
# ---------------------------------------------------------------- tools
add("C66", "The prop rewriting tool converts names idempotently and keeps values",
    "rewrite of snake_case props changes only string keys of element attribute dicts, keeps values and order, and a second rewrite changes nothing.",
    "every attribute dict", "All inputs.", ["src/reactpy/_console/rewrite_props.py:conv_attr_name,_rewrite_props,_construct_prop_item"])
add("C67", "list_logged_exceptions returns and removes exactly the matching records",
    "Violated when two adjacent records match: the list is mutated while iterated, so a match is skipped (finding); with del_log_records=False it is exact.",
    "every log", "All logs.", ["src/reactpy/testing/logs.py:list_logged_exceptions"])
add("C68", "Reconstructed wheels never contain paths escaping the archive",
    "No absolute path or path with a '..' component is written into the reconstructed wheel, and every archived file is listed in RECORD.",
    "every installed file list", "All lists.", ["src/reactpy/executors/pyscript/utils.py:_wheel_archive_name,_rebuild_installed_reactpy_wheel"])
add("C69", "Minification keeps Python source meaning",
    "Violated: '#' inside a string literal is treated as a comment (finding).",
    "every source text", "All sources.", ["src/reactpy/executors/pyscript/utils.py:minify_python"])

# ---------------------------------------------------------------- added while modelling
add("C70", "HTML text written by reactpy_to_string uses HTML's attribute names and boolean attributes",
    "Every React attribute is written under its HTML name, from which html_to_vdom restores the React name, and a boolean attribute that is False is left out. Violated: className and htmlFor become classname and htmlfor, which no browser knows, and disabled=False becomes disabled=\"False\", which a browser treats as true (finding); all known React names are restored by html_to_vdom.",
    "every attribute name and value", "All names.", ["src/reactpy/utils.py:_react_attribute_to_html,reactpy_to_string"])
add("C71", "Converted HTML elements get their key from their attributes",
    "The key of a converted element is its key attribute, else its non-empty id, else (for form fields) its non-empty name, else it has none.",
    "every tag and attribute dict", "All attribute dicts.", ["src/reactpy/transforms.py:RequiredTransforms.infer_key_from_attributes"])
add("C72", "The names found in a module's source are the names it exports",
    "For sources made of plain export statements (named lists with renaming, functions, classes, a const, let declarations, default, re-exports) the scanner returns exactly the exported names and re-exported modules. Violated for destructuring exports, lists of constants, let values with commas, var, async functions, lists over several lines and export text in comments (finding).",
    "every source text", "All sources.", ["src/reactpy/reactjs/utils.py:resolve_names_from_source"])
add("C73", "A module file can be registered under any name",
    "file_to_module succeeds for every module name whose source file exists, including names with directories. Violated: the lock file is opened before the target's directory is made, so for a name in a directory that does not exist yet the lock is never acquired and the call fails after the timeout (finding).",
    "every name and interleaving", "Needs every schedule.", ["src/reactpy/reactjs/module.py:file_to_module", "src/reactpy/reactjs/utils.py:file_lock,copy_file"])
add("C74", "A connection ends when its client disconnects",
    "After a disconnect the connection's loop ends, whatever happened before. Violated: when the dispatcher task has failed (for example, for an unregistered component) nobody takes messages, and once the queue is full the loop waits for ever and never sees the disconnect (finding). While the dispatcher runs a full queue only delays the loop.",
    "every queue size and sequence of messages, failures and disconnects", "Needs a failed dispatcher and a full queue.", ["src/reactpy/executors/asgi/middleware.py:ComponentDispatchApp.__call__,ReactPyWebsocket.run_dispatcher"])
add("C75", "Index page responses are conditional and announce their length",
    "A GET request gets an empty 304 iff one of its validators is current and else the page; the announced content length is the page's length in bytes. Violated for pages with non-ASCII text: the length in characters is announced (finding).",
    "every page and request", "All pages.", ["src/reactpy/executors/asgi/standalone.py:ReactPyApp.__call__"])
add("C76", "Handlers get the event's data",
    "Every number, string and boolean that can be reached from a browser event within the depth limit, by properties, form elements or array items that are not meant to be left out, is in the data sent to the server at the same place; nothing else is; the conversion ends for every object graph, cyclic or not, and the depth of the data is limited. Violated: objects in nested properties called files are followed without any limit; names in upper case, the size of files and null items of arrays are lost (finding).",
    "every graph of page objects and depth limit", "All object graphs, including cyclic ones.", ["src/js/packages/event-to-object/src/index.ts:convert,deepCloneClass,classToArray,classToObject,shouldIgnoreValue,serializeSelection"])
add("C77", "Concurrent renders show the program's components and no others",
    "With asynchronous rendering and components that come and go: whenever no render is in progress, the display is what the program gives for the states it was rendered from, exactly the components on display are mounted with their effects running, each in its current state unless a render of it is due, and the session goes on. Violated: a render requested for a component that is removed before it starts raises in the render loop and ends the session; renders that overlap can put a removed component on display in the place of another and leave its effects running (finding).",
    "every program with distinct keys, every sequence of state changes and every schedule of the render tasks", "Needs every schedule.", ["src/reactpy/core/layout.py:Layout._create_layout_update,_render_component,_render_model_children,_unmount_model_states,_schedule_render_task,_ModelState.parent"])
add("C78", "A superseded render leaves nothing behind",
    "When a render overtakes another one in progress, the other is abandoned: it keeps no lock, no render waits for ever, and no component it made stays mounted. Locks are released and some render can always go on, in every schedule. Violated: components made by the abandoned render stay mounted with effects running for good, and the render that goes on can report an error for a component although nothing failed (finding).",
    "every program, every sequence of state changes and every schedule of the render tasks", "Needs every schedule.", ["src/reactpy/core/layout.py:Layout._render_component,_render_model_children,_unmount_model_states", "src/reactpy/core/_life_cycle_hook.py:LifeCycleHook.affect_component_will_render"])

add("C79", "The server knows the browser's location at every connection",
    "At the first connection and at each reconnection, use_location gives exactly the browser's path and query string at that time, whatever characters they have and whatever other parameters the component's URL carries; these other parameters reach the server unchanged and in order (those without a value are dropped). For other clients: the query is rejected iff it is non-empty and has a field without '='.",
    "every location, URL and sequence of reconnections", "All strings; encoding and decoding are in two languages.",
    ["src/js/packages/@reactpy/client/src/websocket.ts:syncBrowserLocation", "src/js/packages/@reactpy/client/src/mount.tsx:mountReactPy", "src/reactpy/executors/asgi/middleware.py:_location_from_websocket_query_string"])

add("C80", "rewrite-keys keeps what a program means",
    "The rewrite-keys tool moves the key argument of an element constructor into its attributes: the rewritten program makes the same elements, with the same attributes (the key after the others), children and other arguments, and all other expressions keep their meaning. Afterwards a key argument is left only where attributes cannot be told from children.",
    "every Python expression", "Syntax trees of any depth, with calls nested in calls and in keys.",
    ["src/reactpy/_console/ast_utils.py:find_element_constructor_usages", "src/reactpy/_console/rewrite_keys.py:find_nodes_to_change"])

add("C81", "The rewriting tools change only the code they rewrite",
    "rewrite-keys and rewrite-props replace the source text of the statements (or parts of them) that contain changed calls by new code, with the comments of the replaced lines before it; every other line is kept as it is, and on the first and last line the text before and after the replaced code is kept with its indentation. Every changed call is in replaced code.",
    "every source text, set of changed calls and positions", "All texts and positions, several replacements per file.",
    ["src/reactpy/_console/ast_utils.py:rewrite_changed_nodes"])
add("C82", "A component of one JavaScript module inside one of another shows its latest model",
    "An element for a component of another JavaScript module, placed inside an imported component, always shows the latest model it was given, rendered by a binding made for that model's module on this element: a binding is not used after it was unmounted, is unmounted before another is made, and none remains when the element leaves the document. Once no load is outstanding the latest model is shown. This is for modules whose bind function does not throw.",
    "every order of updates, ends of loads (success, failure, improper bindings) and insertions and removals", "Any number of updates, with loads ending in any order.",
    ["src/js/packages/@reactpy/client/src/vdom.tsx:ReactPyChild", "src/js/packages/@reactpy/client/src/vdom.tsx:isImportSourceEqual"])
add("C83", "A component of a JavaScript module shows its latest model",
    "When no load, render or effect is outstanding and all loads succeeded, the last thing the component did is to render its latest model with a binding made for that model's module and, unless unmountBeforeUpdate is set, never unmounted; while the module is loaded its fallback is shown; bindings are not used after they were unmounted nor for models of another module; after its removal the component does nothing more and nothing remains mounted. The built-in React bindings never use an unmounted root or make a second root for an element.",
    "every order of models from the server, renders, effects, ends of loads and removal", "All interleavings of renders, delayed effects and loads.",
    ["src/js/packages/@reactpy/client/src/components.tsx:useImportSource", "src/js/packages/@reactpy/client/src/components.tsx:ImportedElement", "src/js/packages/@reactpy/client/src/bind.tsx:reactjs_bind"])
add("C84", "Imported components receive their whole model",
    "For an imported JavaScript component and everything inside it, each part of the model is at the same place in what the component's framework is given: texts, HTML elements, fragments, components looked up by their (dotted) name in the module, with all attributes, event handlers and inline scripts as properties (a script wins over a handler, a handler over an attribute of the same name); components of other modules become elements of their own; only components the module does not export are left out. Every call of an event handler's function sends one event to its target with the converted arguments, after preventing default or stopping propagation on each of them if asked to, at most as often as debounce and throttle allow. Errors of components are shown.",
    "every model tree, module and sequence of calls", "All trees and names, any arguments.",
    ["src/js/packages/@reactpy/client/src/vdom.tsx:createImportSourceElement", "src/js/packages/@reactpy/client/src/vdom.tsx:getComponentFromModule", "src/js/packages/@reactpy/client/src/vdom.tsx:createAttributes", "src/js/packages/@reactpy/client/src/vdom.tsx:createChildren", "src/js/packages/@reactpy/client/src/vdom.tsx:createEventHandler", "src/js/packages/@reactpy/client/src/handler.ts:isValidDebounce"])
add("C85", "A component that runs in the browser is shown on the page",
    "For a component that runs in the browser (PyScript), after every update the document holds the elements, attributes, styles and texts of the component's current model, whatever it held before; and an event on an element reaches exactly the handlers the current model has for it.",
    "every history of models", "All trees, and every pair of successive ones.",
    ["src/reactpy/executors/pyscript/layout_handler.py:ReactPyLayoutHandler.render_html", "src/reactpy/executors/pyscript/layout_handler.py:ReactPyLayoutHandler.build_element_tree", "src/reactpy/executors/pyscript/layout_handler.py:ReactPyLayoutHandler.create_event_handler", "src/reactpy/executors/pyscript/layout_handler.py:ReactPyLayoutHandler.run"])
add("C86", "The user's code runs in the browser as written",
    "The program of a browser-side component consists of all lines of the user's files, in order and each moved to the right by the same four spaces, in a function with a name of its own that ends by calling the root component; literals keep their values; files are refused exactly if they do not define the root component; and in the page the program is the whole text of one script element.",
    "every list of files, every root name and id", "All texts, line ends and characters.",
    ["src/reactpy/executors/pyscript/utils.py:pyscript_executor_html", "src/reactpy/executors/pyscript/utils.py:pyscript_component_html", "src/reactpy/executors/pyscript/utils.py:fetch_cached_python_file", "src/reactpy/executors/pyscript/component_template.py"])
add("C87", "The PyScript configuration has the user's settings and what ReactPy needs",
    "The configuration a page gives to PyScript has every setting the user gives, the packages and JavaScript files ReactPy needs in the browser and those the user adds, and no cache of packages exactly if one of them is a wheel; and the attribute of the page's script element holds this configuration.",
    "every configuration, list of packages and list of JavaScript files", "All values and all texts in them.",
    ["src/reactpy/executors/pyscript/utils.py:extend_pyscript_config", "src/reactpy/executors/pyscript/utils.py:pyscript_setup_html"])
add("C88", "Browser-side components run exactly while they are on the page",
    "The program of a browser-side component runs once it is shown, also after a reconnection, and is not stopped while the component is on the page; one that has left the page is stopped, and its code deleted, when the next one starts; a component keeps its state in the browser when its parent renders again.",
    "every history of components shown, shown again and removed, and every order in which scripts and tasks start", "All histories and schedules.",
    ["src/reactpy/executors/pyscript/components.py:_pyscript_component", "src/reactpy/executors/pyscript/layout_handler.py:ReactPyLayoutHandler.delete_old_workspaces", "src/reactpy/executors/pyscript/component_template.py", "src/js/packages/@reactpy/client/src/components.tsx:ScriptElement"])
add("C89", "A page connects to the component it was made for",
    "In a page made by the template tag or the standalone application: ReactPy's code, the import map's modules and the JavaScript modules are loaded from the application that made the page, "
    "the client opens a socket that this application routes to the registered component, shows it in the tag's element, and reconnects with the server's settings. "
    "It fails for the prefix '/' (the import map names another host), for settings of zero, for component names with other than ASCII letters, and when a second application with another prefix is created (findings).",
    "every path prefix, component path, element id, class and setting; every sequence of applications created in a process",
    "Ranges over all prefixes and paths, through generated HTML, JavaScript and URL routing.",
    ["src/reactpy/executors/utils.py:server_side_component_html,default_import_map,check_path,process_settings", "src/js/packages/@reactpy/client/src/mount.tsx:mountReactPy",
     "src/reactpy/executors/asgi/middleware.py:ReactPyMiddleware.__init__", "src/reactpy/templatetags/jinja.py:component", "src/reactpy/executors/asgi/standalone.py:ReactPyApp.render_index_html"])
add("C90", "Settings of an application are applied as given",
    "When an application is created with settings, either all are known and accepted and then every named option has the validated value, the debug setting is passed on to the two checks, "
    "every other option is unchanged and the order of the settings does not matter; or the constructor raises and no option has changed. "
    "The last part fails: settings before a refused one stay applied; the order matters for debug and its checks; and one documented setting, tests_default_timeout, is always refused (findings).",
    "every list of settings, every history of the options before, every environment and every behaviour of the validators of numbers, paths and texts",
    "Ranges over all combinations and orders of settings and all earlier histories of the process-wide options.",
    ["src/reactpy/executors/utils.py:process_settings", "src/reactpy/config.py:boolean,REACTPY_DEBUG,REACTPY_TESTS_DEFAULT_TIMEOUT", "src/reactpy/_option.py:Option.set_current", "src/reactpy/types.py:ReactPyConfig"])
add("C91", "Messages reach the browser's handlers, once and in order",
    "A message that comes from the server is passed once to each handler that listens to its type at that time, in the order of registration; handlers may register and remove handlers meanwhile. "
    "The connection is opened only once the root listens, so that no update of the page is lost. "
    "Guards (findings): a handler that throws keeps later ones from the message; ending one of two registrations of the same handler ends both; types named like a property of all JavaScript objects are refused; "
    "and the client's methods handed to the bind function of imported modules always throw.",
    "every sequence of registrations, removals and messages, every behaviour of the handlers (what they register, remove, whether they throw), every order of effect, promise jobs and frames in a page",
    "Ranges over all interleavings of registrations, removals and incoming messages, also from inside handlers.",
    ["src/js/packages/@reactpy/client/src/client.ts:onMessage,handleIncoming", "src/js/packages/@reactpy/client/src/websocket.ts:createReconnectingWebSocket", "src/js/packages/@reactpy/client/src/components.tsx:Layout", "src/js/packages/@reactpy/client/src/vdom.tsx:loadImportSource"])
add("C92", "A component that fails is replaced by its error as long as it can be printed; its key is no argument",
    "When a component's function or what it returns raises an exception, the layout shows an error in its place (the message only in debug mode) and everything around it is shown as if the component had not failed. "
    "Guard (finding): this needs the component to be printable, because the log message prints it: if an argument's repr raises, or the function has no name (a partial function, a callable object), "
    "the exception takes the surrounding component with it, or ends the render. The argument key is for the layout alone: a function that could take it by name is refused, and no other; all other arguments reach the function. In logs a component is called by the name of its function, its address and all its arguments by name.",
    "every tree of components and elements, every place in it, every behaviour of the component, every list of arguments and signature",
    "Ranges over all trees around the component and all arguments, including ones whose printing fails.",
    ["src/reactpy/core/component.py:component", "src/reactpy/types.py:Component.__init__,Component.render,Component.__repr__", "src/reactpy/core/layout.py:Layout._render_component"])
add("C93", "The page shows what the program says, through lost connections",
    "However a component's state is changed and however often the connection to the server was lost before, once the messages of the last connection have arrived the browser's copy of the model is exactly the server's; "
    "when nothing is left to render, it is what the components return for their current states. The same holds for components that run in the browser, down to the document's elements. "
    "Guard (finding): the root component itself must not have failed; if it did, the page keeps showing its error even after it recovered.",
    "every application, every history of renders and state changes of every connection, every number of lost connections, every order of the page's own operations and of other messages",
    "Ranges over all programs, all histories on both sides of the network and all points where a connection is lost.",
    ["src/reactpy/core/layout.py:Layout.render", "src/reactpy/core/serve.py:_single_outgoing_loop", "src/js/packages/@reactpy/client/src/client.ts:BaseReactPyClient.handleIncoming", "src/js/packages/@reactpy/client/src/components.tsx:Layout", "src/reactpy/pyscript/layout_handler.py:ReactPyLayoutHandler"])
add("C94", "An event handler's function runs to its end, once, with the event's data",
    "A function, async function, method or partial given as an attribute, with @event or to EventHandler runs from beginning to end once for each event, with the event's data as arguments (one list for EventHandler), and its exception comes out of the handler. "
    "Functions merged into one handler all run to their ends, in any interleaving, unless one raises; none does anything twice. Attributes of the event read its data, nested dictionaries included. "
    "Guard (findings): a plain function that returns something to be awaited (lambda event: delete(item) with an async delete) does nothing, silently, and so do generator functions; data under names that dictionaries have as methods, such as event.dataTransfer.items, cannot be read as attributes.",
    "every callable and every body, every event data, every schedule of merged handlers",
    "Ranges over all callables, all nested data and all interleavings of merged handlers.",
    ["src/reactpy/core/events.py:event,to_event_handler_function,merge_event_handler_funcs", "src/reactpy/core/vdom.py:separate_attributes_handlers_and_inline_javascript", "src/reactpy/core/layout.py:Layout._process_event_queue", "src/reactpy/types.py:Event"])
add("C95", "Hooks belong to the component whose body calls them",
    "However renders of any number of layouts, effects, event handlers and other tasks take turns, a hook called in a component's body works on that component, and the component takes over context providers only from the component around it in the same render. "
    "In event handlers, in effects, in whatever these start, and everywhere when no render is under way, a hook raises an error. "
    "Guard (findings): in a task that a component's body itself starts, a hook works, while that render goes on, on whatever component is being rendered; and with the thread-local variant of the hook stack two renders in turns mix up.",
    "every schedule of any number of render tasks, effects, handlers and started tasks, renders nested to any depth",
    "Ranges over all interleavings of tasks; tests run one layout with a few tasks.",
    ["src/reactpy/core/_life_cycle_hook.py:_HookStack,LifeCycleHook.set_current,LifeCycleHook.unset_current", "src/reactpy/core/_thread_local.py:ThreadLocal", "src/reactpy/core/layout.py:Layout._create_layout_update,Layout._render_component"])
add("C96", "Leaving a layout ends everything it started",
    "With async rendering, leaving a layout (as serving does when the connection ends) ends all renders and event handlers, unmounts all components and stops all effects, whatever was requested before and in whatever order tasks run, and what it waits for can always end. "
    "Guard (findings): no render is under way when it is left and at most one is requested, no state changes while it waits, no render has failed unseen and no handler catches the cancellation. "
    "Without the guard it may return with components mounted and effects running, raise and leave the rest as it is, return with a render still to come, or wait for ever.",
    "every program, every schedule before and while leaving, any number of event handlers in any state",
    "Ranges over all points of a session at which the connection can end and all schedules of the tasks then alive; tests leave layouts when nothing is going on.",
    ["src/reactpy/core/layout.py:Layout.__aexit__,Layout._unmount_model_states,Layout._process_event_queue", "src/reactpy/core/serve.py:serve_layout"])
add("C97", "What a session keeps is bounded by what it was asked to do",
    "A session keeps at most one record per render ever requested, and event queues and tasks exactly for the targets that events were ever sent to. "
    "Findings: it does not keep less. A session that shows one component and has rendered it n times keeps n + 1 finished render tasks with their updates; the record of a component stays when the component is gone; "
    "and elements that were shown, clicked once and removed leave a queue and a waiting task each, until the session ends.",
    "every program and schedule; every number of renders, elements and events",
    "Ranges over sessions of any length; tests end after a few renders and do not look at what is left.",
    ["src/reactpy/core/layout.py:Layout.__aenter__,Layout._schedule_render_task,Layout._render_component,Layout.deliver"])
add("C98", "PyScript pages load a wheel of the code that is there",
    "The wheel of ReactPy that a PyScript page loads is one of the running version. With a source checkout it has the sources of the moment at which the page is made, and it is built again only when a source has changed; "
    "without a checkout it has the installed files. A page is refused only if the build fails. A process that is killed while it writes the wheel leaves the earlier wheel in place.",
    "every history of edits, removals, moves, clock ticks, builds and page requests; every package version; every point at which a process is killed, and every sequence of processes",
    "Ranges over orders of edits and builds, the resolution of the clock, and crash points; tests build once and look at the name.",
    ["src/reactpy/executors/pyscript/utils.py:_ensure_local_reactpy_wheel,_find_current_reactpy_wheel,_wheel_matches_local_version,_normalize_wheel_part,_wheel_is_stale_for_source,_build_reactpy_wheel_from_source,_copy_reactpy_wheel_to_static_dir,_rebuild_installed_reactpy_wheel"])
add("C99", "A component made from a file, text, address or npm package loads what was asked for",
    "Each call gives one component per name, with the flags asked for, for the address or the module file of its name; the placeholder is the one given. In the browser the component loads the file, as it is, or the text given in the call; with symlink it follows later edits. "
    "The address of an npm package determines the package, its version and whether it is bundled. No call changes a source file.",
    "every history of calls of the four functions, edits of source files, changes of the working directory and restarts of the process, from every content of the module directory; every name",
    "Depends on which calls came before, in this process and earlier ones; tests use a fresh name each.",
    ["src/reactpy/reactjs/__init__.py:component_from_url,component_from_npm,component_from_file,component_from_string", "src/reactpy/reactjs/module.py:url_to_module,file_to_module,string_to_module,module_name_suffix,get_module_path", "src/reactpy/reactjs/utils.py:copy_file,are_files_identical", "src/js/packages/@reactpy/client/src/client.ts:loadModule"])
add("C100", "A merged event handler runs every function to its end",
    "When handlers were merged, a call starts each function once and is over only when all have ended. It raises iff a function raised. Functions that do not wait, and all functions if none fails, do what they would do on their own. The call is never stuck while the things its functions wait for happen.",
    "every list of functions, given by what they do between waits and when a wait is cancelled; every schedule, including cancellation of the call",
    "Ranges over schedules of concurrent tasks and the moment of a failure; tests run one order.",
    ["src/reactpy/core/events.py:merge_event_handler_funcs,merge_event_handlers"])
add("C101", "A session serves its client while the connection lasts and is left completely when it ends",
    "The layout events a client sends are delivered to the layout in the order they came, each once, and the updates that renders give are sent in their order, each once. As long as the session is at work everything that came is dealt with after finitely many steps, also with a full queue: the connection is over if a disconnect or something that is no message came, else all layout events are delivered. Once a session begins to end nothing more is delivered or sent. When it ended because the connection did, all components are unmounted; when it failed, this is logged. Violated (findings): a session that fails leaves the connection open and the page dead without a word (for example an update that is no JSON, or an event without target); a disconnect while a failed session is being left stops the unmounting; an update rendered before the connection is accepted ends the session.",
    "every queue size, every sequence of frames, updates and failures, every schedule of the receiving loop, the dispatcher and its tasks",
    "Ranges over all interleavings of three loops, a bounded queue and cancellation at any point.",
    ["src/reactpy/executors/asgi/middleware.py:ComponentDispatchApp,ReactPyWebsocket", "src/reactpy/core/serve.py:serve_layout,_single_outgoing_loop,_single_incoming_loop"])
add("C102", "The log assertions of the testing tools are about what is logged in their block",
    "assert_reactpy_did_log passes exactly if ReactPy logs, in its block, a record with such a message, exception class and error text, and assert_reactpy_did_not_log exactly if it does not; exceptions of the block come out of both; and when the block ends, however it ends, the logger and the records are as they were before. Violated (findings): inside another block (every BackendFixture is one) records logged before the assertion count; records logged in an inner block do not; assert_reactpy_did_not_log passes if a log assertion in it fails; switching the debug mode in a block is undone at its end.",
    "every test: statements, exceptions and blocks inside blocks to any depth, every record and every condition",
    "Ranges over all nestings of blocks and all exits from them.",
    ["src/reactpy/testing/logs.py:assert_reactpy_did_log,assert_reactpy_did_not_log,capture_reactpy_logs", "src/reactpy/logging.py:_set_debug_level"])
add("C103", "Exceptions that are logged during a test are found",
    "list_logged_exceptions returns every logged exception of the class, level and text asked for, in order, and removes just their records if asked to (the default); BackendFixture fails at its end if an exception was logged in it, and only then, and shuts its server down. Violated (findings): with two such records, the second is missed if it follows at once, and else the record before it is removed instead of it; the fixture clears the records before it looks at them, so it never fails on its own, and inside a block with an earlier error it always fails and leaves its server running; if its server does not start, logs are captured for ever.",
    "every list of records and every choice of class, level and pattern; every test with fixtures and blocks nested to any depth",
    "Ranges over all lists of records: the tests have one exception.",
    ["src/reactpy/testing/logs.py:list_logged_exceptions", "src/reactpy/testing/backend.py:BackendFixture.__aenter__,BackendFixture.__aexit__,BackendFixture.list_logged_exceptions"])
add("C104", "The rewriting commands change the files they are given, completely, and no others",
    "rewrite-keys and rewrite-props read the files that are given by name and the Python files in the folders that are given, at any depth, and write to each one that needs a change its rewritten source; every other file keeps its bytes; and whenever the command is stopped, by an error or from outside, each file has its old or its new content. Violated (findings): a file is emptied before its new content is written, so that stopping loses it; it is written in the encoding of the locale though it was read as UTF-8, so that a character the locale lacks leaves an empty file; all line ends of a rewritten file become those of the system; and one file that does not parse, or a folder named like a Python file, keeps the files after it from being rewritten.",
    "every tree of files and folders, every list of paths, every encoding of the locale, every source text, and every moment at which the command may be stopped",
    "Ranges over crash points and encodings; the tests rewrite single source texts and never look at files.",
    ["src/reactpy/_console/rewrite_keys.py:rewrite_keys,generate_rewrite", "src/reactpy/_console/rewrite_props.py:rewrite_props,generate_rewrite"])
add("C105", "In debug mode the children in lists that have no key are reported, where the user's code gave them",
    "Outside debug mode constructing an element checks no keys. In debug mode it gives the same children, and warns once about each component or element without a key that is an item of a list among its children, at any depth, about no other child, and once about each iterable without a length; each warning is put at the line outside the package from which the package was called, however deep the call; and if the user turns warnings into exceptions, the construction fails exactly if there is something to report, with the first report. Violated (findings): an element whose key is None is not reported though it has no key; the items of a generator are not looked at; and code in the top module of the package does not count as part of the package.",
    "every tree of lists, generators, components, elements and texts given as children, every call stack, and either filter for warnings",
    "Ranges over nested lists and call stacks; the tests look at one list and one generator.",
    ["src/reactpy/core/vdom.py:_flatten_children,_is_single_child,_validate_child_key_integrity", "src/reactpy/_warnings.py:warn,_frame_depth_in_module,_iter_frames"])
add("C106", "use_debug_value logs a message when it has changed, in debug mode only, and is harmless otherwise",
    "A render in debug mode logs the message of use_debug_value exactly if it differs (!=) from the one this component logged last, also if debug mode was off in between; outside debug mode nothing is logged; and switching debug mode on or off never makes a component fail. Violated (findings): a list that is changed in place is not logged again; a message whose comparison has no truth value, such as an array, makes the component fail, in debug mode only; after the message's function has raised, an outdated message is taken; and a render with no dependencies followed by one with an empty list of them uses the earlier message.",
    "every history of renders, each in or outside debug mode, with any message, function and dependencies, and any changes to objects in between",
    "Ranges over histories of renders and of debug mode; the tests use two or three renders with numbers.",
    ["src/reactpy/core/hooks.py:use_debug_value,use_memo,_try_to_infer_closure_values"])
add("C107", "Inline JavaScript does in the client what it does in an HTML page",
    "When an event of an element occurs whose attribute is a text of JavaScript, the page changes as it does in HTML when the same text is the element's event handler content attribute: the same properties and variables are set, the same functions called with the same arguments, an exception is reported in both or none, and the default action is cancelled in both or none. A text that gives a function is as one that calls this function with the event. Violated (findings): a text with a return statement is a syntax error, so 'return confirm(...)' neither asks nor cancels; a global variable called as one of the client's own is not seen; properties of the element, its form or the document can not be named directly; a new global variable can not be made by an assignment; in a function written with 'function' this is undefined.",
    "every text of a small JavaScript (names, this, constants, assignments, functions, return, exceptions, host functions), every page, element, form and event",
    "Ranges over programs; the tests have three texts.",
    ["src/js/packages/@reactpy/client/src/vdom.tsx:createInlineJavaScript", "src/reactpy/types.py:InlineJavaScript"])
add("C108", "A hot-swapped view displays what was swapped in last",
    "With update_on_change every open view displays what was swapped in last, as soon as nothing is left to render; without it a view displays what had been swapped in at its last render, and a new view always the latest; what is mounted on a test server is what its clients see; and closed views are forgotten. Violated (findings): a swap between a view's first render and the start of its effect is lost; a component defined in a function is not told apart from another of the same qualified name, so a redefined component is not displayed; and all test servers share what is mounted.",
    "every history of swaps, views opened and closed, effects started and cleaned up and renders, in every order; every equality of constructors",
    "The order of swaps, effects and renders is up to the event loop.",
    ["src/reactpy/testing/backend.py:_hotswap,BackendFixture.mount,mount_to_hotswap,root_hotswap_component"])
add("C109", "Debug mode changes the texts of errors and nothing else",
    "For every program and history the run outside debug mode is the run in debug mode without the texts of errors: the same calls of components, the same errors, effects, unmounts and updates in the same order, the same event handlers, the same values of hooks and the same requested renders. An update that displays no error is the same in both.",
    "every component program (any use of hooks, contexts, keys, failing components), every history of renders, state changes and client events, also during renders",
    "A property of two runs, of all programs.",
    ["src/reactpy/core/layout.py:Layout._render_component,Layout._create_layout_update", "src/reactpy/config.py:REACTPY_DEBUG"])
add("C110", "An update renders the part below the component that changed, and there are no more updates than changes",
 "Each update of a layout renders exactly one of the components whose re-render was requested (the first one in the order of the requests that is still mounted) and the components below it, each once and parents before children, unmounts exactly the components that were below it and no longer are, and neither renders nor unmounts any component elsewhere. If render functions do not change states themselves, the updates sent up to any moment are at most one plus the calls of setters and dispatch functions made so far.",
 "all applications, all histories of renders and state changes, at every point of them; render functions may fail in components that until then have shown nothing but texts and elements without child components and event handlers (for the bound: they may fail anywhere); for the bound: all applications whose render functions do not call setters",
 "how many components an update renders depends on the whole history of requests, unmounts and moves; a test sees the renders of a few chosen histories",
 ["src/reactpy/core/layout.py:Layout._serial_render", "src/reactpy/core/layout.py:Layout._create_layout_update", "src/reactpy/core/layout.py:Layout._render_component", "src/reactpy/core/_life_cycle_hook.py:LifeCycleHook.schedule_render", "src/reactpy/core/hooks.py:_CurrentState"])
add("C111", "Applications in one process keep to their own arguments",
    "However many applications are created in a process, with routes, lifespan applications and requests in between: creating one succeeds exactly if its prefix, directory, settings and dotted paths are in order, and otherwise changes nothing; a middleware renders a component exactly at the URL of a dotted path it was given, and it is the object this path names; requests that are not ReactPy's go to the application given last for the first matching route of this application; only one lifespan application is taken; the page has the language, head and body that were given, connects to the application that served it, and never changes. It fails for two applications that are given the same head element when one of them adds PyScript; for a constructor that raises after the settings were applied; for an element that is no head, which is accepted and then fails at every request; and for a PyScript page whose head contains the text of an end tag (findings).",
    "every sequence of applications created, routes and lifespan applications added and requests; all settings, modules, heads and paths",
    "Ranges over all histories of applications in a process that share its options and the elements given to them.",
    ["src/reactpy/executors/asgi/middleware.py:ReactPyMiddleware.__init__", "src/reactpy/executors/asgi/standalone.py:ReactPy.__init__,ReactPy.route,ReactPy.lifespan,ReactPyApp.render_index_html", "src/reactpy/executors/asgi/pyscript.py:ReactPyCsr.__init__,ReactPyPyscriptApp.render_index_html", "src/reactpy/executors/utils.py:import_components,vdom_head_to_html", "src/reactpy/utils.py:import_dotted_path"])
add("C112", "An input shows what the program says, and updates do not take back what the user enters",
    "Once all events of an input element have been sent and handled and the result was rendered and received, the input shows the text that the program gives as its value, whatever handlers it has, however they delay events, in whatever order the server handles them and whenever renders happen. An update changes the text only if the user's last event, or the one before it, had been handled. The text is always one that the user entered or that the program gave. An input without a value keeps what the user entered. It fails if another component of the same shape takes the place of the element's, after a lost connection, if the handler leaves the state as it is, if no handler is called for the change, for values that are numbers, for inputs that are shown again, and for handlers that delay events beside others that do not (findings).",
    "every sequence of user actions, timers, deliveries, handled events, state changes, renders, replaced elements and lost connections; all programs and handler options",
    "Ranges over all interleavings of the browser's events and timers with the server's handlers and renders.",
    ["src/js/packages/@reactpy/client/src/components.tsx:UserInputElement,throttleHandler,debounceHandler", "src/js/packages/@reactpy/client/src/vdom.tsx:createEventHandler,createAttributes", "src/reactpy/core/layout.py:Layout._process_event_queue,Layout._inject_event_ack_seq"])
add("C113", "Elements of the page keep their nodes by keys and positions",
    "What the user entered, the focus and the scroll position belong to the nodes of the page. From one update to the next, an element keeps its node if it and the elements around it have the same names at the same keys and positions, and everything else gets a node that was not there before; no node is used twice. An element that stays the same for the program keeps its node if no component around it has a key and no child is None. It fails for components with keys that change places, which take each other's nodes; for children after a None that becomes an element, which lose theirs; and a component of another type takes over the nodes of the one it replaces (findings).",
    "every sequence of models and of programs; all elements in them",
    "Ranges over all sequences of trees and all places in them.",
    ["src/js/packages/@reactpy/client/src/components.tsx:Layout,Element,StandardElement", "src/js/packages/@reactpy/client/src/vdom.tsx:createChildren", "src/reactpy/core/layout.py:Layout._render_component,Layout._render_model_children,_get_children_info"])
add("C114", "Event handlers with targets of their own",
    "A program may give its event handlers targets of its own, as the test helper for static event handlers does. If every place (element and event) always has the same target and no two places share one, the program behaves exactly as the same program without own targets: same renders, values of hooks, effects, errors and updates in the same order, only the names of the targets differ. So the registered targets are exactly the displayed ones and all different. It fails for a handler that moves, with its target, to an element rendered earlier: it is displayed but every event for it is dropped, although its target never changed and was never shared (finding).",
    "all programs, all ways of choosing one target per place, all histories of renders, state changes and events",
    "Relates two runs for all programs and all interleavings.",
    ["src/reactpy/core/layout.py:Layout._render_model_attributes,Layout._render_model_event_handlers_without_old_state,Layout._deep_unmount_model_states,Layout._inject_event_ack_seq", "src/reactpy/core/events.py:EventHandler", "src/reactpy/testing/common.py:StaticEventHandler"])
add("C115", "Waiting and capturing in tests",
    "Waiting for a condition in a test returns after the first call whose result meets the condition, raises TimeoutError only if no call's result did and the time is over, and passes on exceptions. If the clock runs evenly and sleeps and calls end, it always ends, at most one sleep and one call after the timeout, and a condition that holds for good is found if a call started before it ends in time. The captured hook is that of the last call of the component, and per argument that of the last call with it. It fails if the clock is set back or a call never ends (no timeout), misses conditions that hold between calls, accepts one that holds only after the timeout, never awaits a coroutine returned by a plain function, and breaks components given the indexed argument by position (findings).",
    "all functions, conditions, lengths of sleeps and calls, clocks; all sequences of captured calls",
    "Ranges over all timings of calls and all clocks.",
    ["src/reactpy/testing/common.py:poll,poll.until,poll.until_is,poll.until_equals,HookCatcher,HookCatcher.capture"])
add("C116", "Every render ends",
    "If the components of an application are nested finitely, whatever values their hooks have (the depth may depend on state and have no bound), then in serial rendering every render of every history ends with an update, an error or by waiting for something to render, and so does leaving the layout: the way new states refer to old ones never makes rendering or unmounting go round in circles. What it ends with is determined by the history alone. A component that shows itself without end has no result (in Python: an error at the limit of nested calls).",
    "all component programs with finite nesting, all histories of renders, events and state updates, also during renders",
    "Ranges over all programs and histories; a test cannot show that something always ends.",
    ["src/reactpy/core/layout.py:Layout.render,Layout._serial_render,Layout._create_layout_update,Layout._render_component,Layout._render_model,Layout._render_model_children,Layout._unmount_model_states,Layout.__aexit__"])
add("C117", "Sequence numbers do not matter to the application",
    "Whether and how a client numbers the events of input elements makes no difference to the application: the same components are rendered with the same results, effects and errors, the same handlers are registered, and the same updates are sent, except for the acknowledgement attribute of input, select and textarea elements.",
    "all component programs, all histories of renders, events and state updates, all assignments of numbers to events",
    "Ranges over all pairs of histories that differ in the numbers.",
    ["src/reactpy/core/layout.py:Layout._process_event_queue,Layout._inject_event_ack_seq,Layout._render_model_attributes"])
add("C118", "Deprecated options warn and otherwise behave like other options",
    "A deprecated option has the same values, calls the same subscribers and raises the same exceptions as a plain option would. Each read, set, unset and reload of it, and each subscription to it, warns; making it does not, and no warning is about an option that is not deprecated or has nothing to do with the option in use. When warnings are made errors, a failing call changes nothing.",
    "all histories of making, reading, setting, unsetting, reloading and subscribing to options with any parents, defaults, environment values and validators; warnings shown or made errors",
    "Ranges over all histories and trees of options; the option class itself reads the value in many of its methods.",
    ["src/reactpy/_option.py:DeprecatedOption,Option.set_current,Option.unset,Option.subscribe,Option.reload,Option.set_default"])
add("C119", "The display fixture uses what it is given and closes what it opened",
    "In a block of a new display fixture every component is mounted on the given backend and shown in one page of the given browser; what is not given the fixture opens itself. However the block ends, afterwards no component is mounted and exactly what the fixture opened is closed, last opened first. Findings: if the block cannot be entered, what was opened stays open; a fixture can show nothing in a second block; the argument headless is ignored.",
    "all combinations of given and missing browsers and backends, all sequences of shows and navigations, all failures",
    "Ranges over all tests and over failures at every point.",
    ["src/reactpy/testing/display.py:DisplayFixture,_playwright_visible"])
add("C120", "Every component of a session sees the connection of that session",
    "In the layout made for a websocket, every component that is mounted, whenever and wherever in the tree it was mounted, gets from use_connection, use_scope and use_location that websocket's connection, scope and location, as long as the application provides no other connection; the page in the browser is the one the application would display if the connection were a constant of its program. In a layout where nobody provides a connection the three hooks raise.",
    "all applications, connections and histories of renders, events and state changes",
    "Components are mounted, moved and rendered again in every order; a test sees a few of them.",
    ["src/reactpy/core/hooks.py:use_connection,use_scope,use_location,ConnectionContext", "src/reactpy/executors/asgi/middleware.py:ReactPyWebsocket.run_dispatcher", "src/reactpy/types.py:Connection,Location"])

out = pathlib.Path(__file__).resolve().parent.parent / "properties.jsonl"
out.write_text("".join(json.dumps(p) + "\n" for p in P))
print(len(P))
