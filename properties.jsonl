{"id": "C01", "title": "Key output strictly alternates press/release", "statement": "For every key code that no multi-step macro of the configuration mentions, the events the engine sends to the virtual keyboard for that code alternate strictly: press, release, press, ... starting with a press. The host never sees a key pressed twice or released when it is up.", "quantifier": "every configuration, every history of key events, timer ticks and live rebinds, every key code outside the macros' own codes", "why_tests_cant": "a test samples a handful of key strokes; a double press or orphan release appears only for particular interleavings of layers, chords, oneshots and pending keys", "anchors": ["src/keyboard.c: send_key, reset_keystate, set_mods, clear_mod, process_descriptor, execute_macro", "src/macro.c: macro_execute"]}
{"id": "C02", "title": "The noop key and the external-mouse marker never reach the host", "statement": "No press or release of the noop key (or of the internal external-mouse-button code) is ever sent to the virtual keyboard, whatever it is bound to, except by a multi-step macro that names it.", "quantifier": "every configuration without multi-step macros naming those codes, every history", "why_tests_cant": "requires that no path at all emits the code, including modifier, chord, reset and macro paths", "anchors": ["src/keyboard.c: send_key", "src/keys.h: KEYD_NOOP, KEYD_EXTERNAL_MOUSE_BUTTON"]}
{"id": "C03", "title": "Processing an event always terminates", "statement": "For any well formed configuration and any engine state reached from start up, handling one batch of events (including recursively replayed chord and pending-key queues and generated timer ticks) terminates: it returns a result or stops at a failed assertion; it never loops.", "quantifier": "every well formed configuration, every reachable state, every batch of events with arbitrary time stamps", "why_tests_cant": "recursion through resolve_chord, handle_pending_key and kbd_process_events is mutual and replays queues; tests cannot rule out an input that loops forever", "anchors": ["src/keyboard.c: process_event, handle_chord, resolve_chord, handle_pending_key, kbd_process_events, process_descriptor"]}
{"id": "C04", "title": "No out-of-bounds access in the engine", "statement": "Starting from a configuration accepted by the parser, no history of key events and timer ticks makes the engine index a layer, cache slot, queue or timer array out of bounds or dereference a missing chord; the only abnormal stops are the explicit assertions.", "quantifier": "every well formed configuration, every history of key events and timer ticks (live rebinding excluded; see the separate refutation with `bind reset`)", "why_tests_cant": "memory errors hide in rare interleavings", "anchors": ["src/keyboard.c: all", "src/keyboard.h: struct keyboard"]}
{"id": "C05", "title": "Only the documented resource limits can abort the daemon", "statement": "The engine's assertions can fail only through: more than 32 events queued behind an undecided key or chord, more than 64 unexpired timers, more than 3 simultaneously held chords, or a layer's activation counter reaching zero too early. For configurations that use none of overloadt/overloadt2/timeout/chords/macros/oneshot timeouts/swap, no history whatever aborts as long as fewer than 255 activations of one layer are outstanding (255 oneshot taps followed by a layer key do abort; a witness is exhibited). In general histories that do abort exist (each one is exhibited).", "quantifier": "every configuration, every history", "why_tests_cant": "an abort of a root daemon that grabs the keyboard locks the user out; one needs all histories", "anchors": ["src/keyboard.c: enqueue_chord_event, handle_pending_key, schedule_timeout, resolve_chord, deactivate_layer"]}
{"id": "C06", "title": "Layer precedence of bindings", "statement": "The binding used for a pressed key is: that of the matching composite layer with the most constituents all of which are active and which binds the key, if any; otherwise that of the most recently activated active layer which binds the key; otherwise the key itself.", "quantifier": "every configuration, every set of active layers with every activation order, every key", "why_tests_cant": "precedence is a statement about all combinations of active layers", "anchors": ["src/keyboard.c: lookup_descriptor"]}
{"id": "C07", "title": "A release undoes the action chosen at the press", "statement": "Whatever layers are activated, deactivated, toggled or swapped between a key's press and release, the release is handled with the binding (and layer) resolved at the press; if the key was pressed as a plain key sequence, its release releases that same output key.", "quantifier": "every configuration, every history between press and release", "why_tests_cant": "depends on arbitrary interleaving between press and release", "anchors": ["src/keyboard.c: process_event, cache_set, cache_get"]}
{"id": "C08", "title": "Modifiers at a key press are exactly the intended ones", "statement": "When a key bound to a key sequence is pressed, at the moment its output key goes down each of the five modifier keys is down if and only if the sequence names it or some active layer other than the one supplying the binding (or its constituents, if composite) carries it (unless the output key is itself that modifier).", "quantifier": "every configuration, every reachable state, every key", "why_tests_cant": "exactness over all combinations of held/toggled/oneshot layers", "anchors": ["src/keyboard.c: update_mods, set_mods, clear_mod, process_descriptor"]}
{"id": "C09", "title": "Modifier guard: no lone alt/meta tap", "statement": "With the modifier guard enabled, when the engine drops alt, altgr or meta because a layer is no longer active and that modifier was the last key it pressed, a control press is interposed before the release (unless control is already down or the layer key itself was merely tapped).", "quantifier": "every configuration and state", "why_tests_cant": "needs all paths that release modifiers", "anchors": ["src/keyboard.c: clear_mod, set_mods"]}
{"id": "C10", "title": "At most one layout besides main is active", "statement": "At any time at most one layout other than main is active; setlayout(L) leaves exactly L active (none for main).", "quantifier": "every configuration, every history", "why_tests_cant": "an invariant over all histories", "anchors": ["src/keyboard.c: setlayout, new_keyboard", "src/config.c: parse_descriptor (ARG_LAYER, ARG_LAYOUT)"]}
{"id": "C11", "title": "clear() releases everything", "statement": "After clear() no key is down on the virtual keyboard (as tracked by the engine), no layer is toggled or pending as oneshot, no macro repeats; layouts and layers held by a physical key stay active.", "quantifier": "every configuration, every state", "why_tests_cant": "must hold from every state", "anchors": ["src/keyboard.c: clear, clear_oneshot, reset_keystate"]}
{"id": "C12", "title": "Oneshot layers end with the next key or their timeout", "statement": "A oneshot layer that was tapped remains active until the next key-sequence/macro/command/toggle press, after which no oneshot activation remains; with oneshot_timeout t, it ends at the first event or tick at or after t ms.", "quantifier": "every configuration, every state and following event", "why_tests_cant": "all states and continuations", "anchors": ["src/keyboard.c: process_descriptor (OP_ONESHOT), clear_oneshot, process_event"]}
{"id": "C13", "title": "toggle is an involution on the layer state", "statement": "Pressing a toggle key flips whether its layer is toggled and adds/removes exactly one activation; two toggles restore the previous activation count; a toggled layer stays active independent of key releases.", "quantifier": "every configuration and state", "why_tests_cant": "all states", "anchors": ["src/keyboard.c: process_descriptor (OP_TOGGLE)"]}
{"id": "C14", "title": "overload: tap versus hold", "statement": "A key bound to overload(layer, action) activates the layer while held; on release the action is performed (press and release) exactly when no other key was pressed in between and, if overload_tap_timeout is set, it was held for less than that time; otherwise the release only deactivates the layer.", "quantifier": "every configuration, every interleaving between press and release", "why_tests_cant": "interleavings", "anchors": ["src/keyboard.c: process_descriptor (OP_OVERLOAD)"]}
{"id": "C15", "title": "overloadt decision", "statement": "A key bound to overloadt(layer, action, t): nothing is emitted until the key is released or t ms pass; if released before t the action is performed, otherwise the layer is activated; keys struck meanwhile take effect afterwards in order.", "quantifier": "every configuration, every timing and every sequence of intermediate key events", "why_tests_cant": "timing and interleaving", "anchors": ["src/keyboard.c: process_descriptor (OP_OVERLOAD_TIMEOUT), handle_pending_key"]}
{"id": "C16", "title": "overloadt2 decision", "statement": "As overloadt, but the layer is also activated as soon as another key is tapped (pressed and released) while the key is held.", "quantifier": "every configuration, timing and sequence of intermediate key events", "why_tests_cant": "timing and interleaving", "anchors": ["src/keyboard.c: process_descriptor (OP_OVERLOAD_TIMEOUT_TAP), handle_pending_key"]}
{"id": "C17", "title": "timeout(a, t, b) decision", "statement": "A key bound to timeout(a, t, b) performs a if released or interrupted by another key press before t ms, and b otherwise; exactly one of the two is performed.", "quantifier": "every configuration, timing and sequence of intermediate key events", "why_tests_cant": "timing and interleaving", "anchors": ["src/keyboard.c: process_descriptor (OP_TIMEOUT), handle_pending_key"]}
{"id": "C18", "title": "overloadi decision", "statement": "overloadi(a, b, t) performs b if no unmodified or shifted key was handled within the last t ms and a otherwise, and its release is that of the chosen action.", "quantifier": "every configuration and state", "why_tests_cant": "all states", "anchors": ["src/keyboard.c: process_descriptor (OP_OVERLOAD_IDLE_TIMEOUT)"]}
{"id": "C19", "title": "Undecided keys never lose or reorder later strokes", "statement": "In a configuration without chords, events arriving while a key is undecided are neither dropped nor reordered: once the decision falls they are processed in arrival order, after the decided action. (Releases of keys struck before the undecided key pass through immediately.) With chords in play, reordering is possible (a witness is exhibited).", "quantifier": "every configuration without chords, every event sequence", "why_tests_cant": "all interleavings", "anchors": ["src/keyboard.c: handle_pending_key, kbd_process_events"]}
{"id": "C20", "title": "A chord struck completely triggers its action exactly once", "statement": "If all keys of a defined, unambiguous chord are pressed each within the inter-key timeout (hold timeout 0), the chord's action is pressed once, none of the constituent keys' own actions happen, and the action is released when the last of the chord's keys is released.", "quantifier": "every chord of every configuration, every order and timing of its keys within the limit", "why_tests_cant": "orders and timings", "anchors": ["src/keyboard.c: handle_chord, check_chord_match, chord_event_match, resolve_chord"]}
{"id": "C21", "title": "A broken chord attempt replays the keys unchanged", "statement": "If a chord attempt fails (timeout or foreign key or early release), the keys struck so far are processed in their original order exactly as if no chord existed.", "quantifier": "every configuration, every failing attempt", "why_tests_cant": "orders and timings", "anchors": ["src/keyboard.c: abort_chord, resolve_chord, handle_chord"]}
{"id": "C22", "title": "Duplicate presses and unmatched releases have no effect", "statement": "When no chord or key decision is pending, a second press of a key already down (e.g. from two keyboards) and a release of a key that is not down emit nothing and change no binding, layer or key state (apart from expiring a oneshot timeout or stopping a repeating macro).", "quantifier": "every configuration, state and key", "why_tests_cant": "all states", "anchors": ["src/keyboard.c: process_event, cache_get"]}
{"id": "C23", "title": "Returned timeout is the distance to the next timer", "statement": "The number returned after each event is 0 if no timer lies in the future and otherwise the distance from the event's time to the earliest scheduled time after it; timers at or before the event's time are discarded.", "quantifier": "every state and time", "why_tests_cant": "all states", "anchors": ["src/keyboard.c: calculate_main_loop_timeout, schedule_timeout"]}
{"id": "C24", "title": "Pending decisions are always covered by a timer", "statement": "Whenever a key decision, oneshot expiry, macro repeat or the end of a chord attempt lies in the future, a timer for it is scheduled and the returned delay leads no later than there; a caller who only follows the returned delays calls at the very moment, and the decision, expiry or repeat then takes place. Deadlines already past when they come up, oneshots due while a key is undecided, and keys due at the moment a chord attempt ends are left without a timer (witnesses are exhibited).", "quantifier": "every configuration, every history with non-decreasing times, live rebinding included", "why_tests_cant": "a lost wakeup shows only in particular timings", "anchors": ["src/keyboard.c: schedule_timeout, calculate_main_loop_timeout, process_event"]}
{"id": "C25", "title": "No stuck keys", "statement": "When the engine remembers no key as held and no layer is toggled or pending as oneshot, no key is pressed on the virtual keyboard; without chords this is so whenever all physical keys are released. True for every parsed configuration, live rebinds included, with these exceptions: swap, clearm, overload of a macro or of an action decided later, nested overloadi, toggled layers together with oneshot layers that have modifiers, and nested actions that are empty. Each exception but the last and swap (see C26) has a witness. Also, every macro a parsed configuration can come to contain releases every key it presses.", "quantifier": "every history of such a configuration", "why_tests_cant": "stuck keys need a particular interleaving; every history matters", "anchors": ["src/keyboard.c: process_descriptor, update_mods, clear_oneshot, handle_pending_key"]}
{"id": "C26", "title": "Layer activations are accounted for", "statement": "A layer's activation count equals (1 if toggled) + (its pending oneshots) + (number of held keys whose release will deactivate it); in particular a layer with no toggle, oneshot or holding key is inactive. (Modulo 256; for configurations without swap, without overload of a later decided action or of overloadi, and without overloadi of overloadi.)", "quantifier": "every configuration without those actions, every history", "why_tests_cant": "an invariant over all histories", "anchors": ["src/keyboard.c: activate_layer, deactivate_layer, process_descriptor"]}
{"id": "C27", "title": "Macros type exactly what they say, balanced", "statement": "Executing a macro emits, for each element in order: a key sequence as modifiers down, key down, key up, modifiers up; a chord group as all downs then all ups; a unicode character as its four-key compose sequence; a pause as a delay. Every key pressed by a macro without pauses inside groups is released by it.", "quantifier": "every macro", "why_tests_cant": "all macro contents", "anchors": ["src/macro.c: macro_execute"]}
{"id": "C28", "title": "Macro repeat", "statement": "A held macro key repeats the macro first after macro_timeout and then every macro_repeat_timeout, only on timer ticks, and any further key event (press or release) stops the repetition.", "quantifier": "every configuration, state and event sequence", "why_tests_cant": "timing", "anchors": ["src/keyboard.c: process_descriptor (OP_MACRO), process_event"]}
{"id": "C29", "title": "Commands run exactly once per press", "statement": "A command binding runs its shell command exactly once for each handled press, never on release, repeat or timer tick; commands run only for keys whose resolved action is that command.", "quantifier": "every configuration without nested commands, every history", "why_tests_cant": "security relevant: all histories", "anchors": ["src/keyboard.c: process_descriptor (OP_COMMAND), execute_command"]}
{"id": "C30", "title": "Batch processing equals event-by-event processing with timers", "statement": "Feeding a list of time-stamped events in one call yields the same state and output as feeding them one at a time and invoking the engine with a timer tick whenever the returned delay expires at or before the next event's time.", "quantifier": "every configuration, state and list of events", "why_tests_cant": "an equivalence of executions", "anchors": ["src/keyboard.c: kbd_process_events", "src/daemon.c: event_handler"]}
{"id": "C31", "title": "Live bind changes only the named binding; reset restores", "statement": "A successful live bind `[layer.]key = action` changes the binding of that key (or chord) in that layer only; every other key of every layer keeps its action; a failing bind changes no binding; `reset` restores exactly the configuration read from disk.", "quantifier": "every configuration and expression", "why_tests_cant": "frame condition over all keys and expressions", "anchors": ["src/config.c: config_add_entry, set_layer_entry, parse_descriptor", "src/keyboard.c: kbd_eval"]}
{"id": "C32", "title": "The parser only produces well formed configurations", "statement": "Whatever text is given, if parsing returns, every layer, macro, command and nested action referenced by a binding exists, no non-layout action refers to main or a layout, chords are of keys (codes 1 to 255), times fit uint16_t and sensitivities int16_t, and all table limits hold.", "quantifier": "every input text (bytes)", "why_tests_cant": "all inputs", "anchors": ["src/config.c: config_parse_string, config_add_entry, parse_descriptor, new_layer"]}
{"id": "C33", "title": "Malformed configuration text cannot crash the daemon", "statement": "Parsing any text either succeeds or reports errors. (False: witnesses are exhibited: six-argument function call, truncated UTF-8 in a macro, empty section name, more than 32 sections, more than 64 ids, composite layer with more than 8 constituents.)", "quantifier": "every input text", "why_tests_cant": "all inputs", "anchors": ["src/config.c: parse_fn, new_layer, parse_id_section", "src/ini.c: ini_parse_string", "src/string.c: utf8_read_char"]}
{"id": "C34", "title": "Key sequence notation round-trips", "statement": "Writing a modifier set and key as text (`C-S-x`) and parsing it returns the same modifiers and key code, for every nameable key; parsing accepts only modifier prefixes C M A S G.", "quantifier": "every modifier set and every named key code", "why_tests_cant": "finite but large; also a soundness claim over all strings", "anchors": ["src/keys.c: parse_key_sequence, modstring, keycode_table"]}
{"id": "C35", "title": "Modifier set notation round-trips", "statement": "Printing a modifier set and parsing it back yields the same set; parse succeeds only on dash-separated letters among C M A S G, and the order of letters does not matter.", "quantifier": "every modifier set; every string", "why_tests_cant": "soundness over all strings", "anchors": ["src/keys.c: parse_modset, modstring"]}
{"id": "C36", "title": "UTF-8 decoding is correct", "statement": "Decoding the UTF-8 encoding of any Unicode scalar value returns that value and consumes exactly its bytes; the end of the string is reported as zero length.", "quantifier": "every code point and every following text", "why_tests_cant": "1.1 million code points and all continuations", "anchors": ["src/string.c: utf8_read_char"]}
{"id": "C37", "title": "Unicode compose sequences are unambiguous", "statement": "Two different supported characters are typed as different four-key sequences, none a prefix of another, all consisting of the cancel key and alphanumeric keys.", "quantifier": "every pair of table indices", "why_tests_cant": "quadratically many pairs over a 34000 entry table", "anchors": ["src/unicode.c: unicode_get_sequence, unicode_lookup_index"]}
{"id": "C38", "title": "Typed text macro", "statement": "A macro given as plain ASCII text presses, character by character in order, the key (with shift if needed) that produces that character.", "quantifier": "every text of supported characters", "why_tests_cant": "all texts", "anchors": ["src/macro.c: macro_parse"]}
{"id": "C39", "title": "Device ids select configurations by the documented rules", "statement": "A device matches a configuration explicitly if one of its ids is a prefix of the device's id and the kind (m:/k:) fits, never if an exclusion (-id) precedes, else by wildcard; explicit matches beat wildcard ones, and wildcards never capture mice-only devices.", "quantifier": "every list of ids, device id and capability flags, every list of configurations", "why_tests_cant": "all combinations and orders", "anchors": ["src/config.c: config_check_match, parse_id_section", "src/daemon.c: lookup_config_ent"]}
{"id": "C40", "title": "INI syntax", "statement": "Comments, blank lines and surrounding white space do not influence the parsed sections; sections and entries keep their order; writing sections and entries in canonical form and parsing returns them. (A binding such as `[ = ]` is misread as a section header; a witness is exhibited.)", "quantifier": "every text", "why_tests_cant": "all texts", "anchors": ["src/ini.c: ini_parse_string, parse_kvp"]}
{"id": "C41", "title": "Action arguments are split respecting nesting", "statement": "An action call f(a1, ..., an) with n <= 5 non-empty arguments whose parentheses are balanced is split into exactly those arguments, whatever nested calls they contain.", "quantifier": "every function name and arguments", "why_tests_cant": "unbounded nesting", "anchors": ["src/config.c: parse_fn"]}
{"id": "C42", "title": "Panic sequence always works", "statement": "Whenever, according to the raw device events read, backspace, escape and enter are all held, the daemon terminates at that very event regardless of configuration, grabs or layers; and it terminates by this path in no other situation.", "quantifier": "every sequence of device events", "why_tests_cant": "safety net must work in every history", "anchors": ["src/evloop.c: panic_check, evloop"]}
{"id": "C43", "title": "Mouse motion is conserved by scroll mode", "statement": "In scroll mode with sensitivity s > 0 the emitted ticks times s plus the retained remainder equals the accumulated motion since scroll mode began (per axis), and the remainder is smaller than s.", "quantifier": "every sequence of motions", "why_tests_cant": "all sequences", "anchors": ["src/daemon.c: event_handler (DEV_MOUSE_MOVE)"]}
{"id": "C44", "title": "Unbound keys pass through unchanged", "statement": "With no user binding, a non-modifier key event read from a device appears on the virtual device as the same evdev event: press and release in order, for every key code below 256 that is not an internal code, and for the mouse buttons with a dedicated code.", "quantifier": "every key and every history of non-modifier events on the default configuration", "why_tests_cant": "all histories", "anchors": ["src/device.c: device_read_event", "src/keyboard.c: process_event", "src/vkbd/uinput.c: write_key_event"]}
{"id": "C45", "title": "Layer listeners see a faithful stream", "statement": "A listener connected at any time receives first the current layout and active layers, then one message per activation and deactivation in order, so that counting + and - per layer reproduces each layer's activation count. (A `-layer` message does not imply that the layer is inactive; a witness is exhibited.)", "quantifier": "every history, every connection time", "why_tests_cant": "all histories", "anchors": ["src/daemon.c: add_listener, on_layer_change", "src/keyboard.c: activate_layer, deactivate_layer"]}
{"id": "C46", "title": "Event loop time-out bookkeeping", "statement": "If the engine asks to be called back in t ms, the main loop delivers a timer event at the first wake-up at least t ms later, unless a later engine call replaced the request. (False when handling is delayed: the residual delay can be rounded to zero and the callback lost; a witness is exhibited.)", "quantifier": "every sequence of wake-ups and handler durations", "why_tests_cant": "schedules", "anchors": ["src/evloop.c: evloop", "src/daemon.c: event_handler"]}
{"id": "C47", "title": "Reload releases every key it had pressed", "statement": "After a reload every key the daemon had pressed on the virtual keyboard is released.", "quantifier": "every prior history", "why_tests_cant": "all histories", "anchors": ["src/daemon.c: reload, clear_vkbd, send_key"]}
{"id": "C48", "title": "Time stamps matter only relatively", "statement": "Shifting all event times by a constant does not change the output (for configurations without overloadi, whose idle clock starts at 0).", "quantifier": "every configuration, event list and offset", "why_tests_cant": "a relation between two executions", "anchors": ["src/keyboard.c: all uses of time"]}
{"id": "C49", "title": "Holding or tapping order of unrelated plain keys", "statement": "On a configuration in which all pressed keys are plain key sequences without chords, the output is exactly the input with each key replaced by its binding (each press: its modifiers and key; each release: its key), i.e. typing fast never reorders plain keys.", "quantifier": "every sequence of presses and releases", "why_tests_cant": "all interleavings", "anchors": ["src/keyboard.c: process_event, process_descriptor"]}
{"id": "C50", "title": "USB gadget reports", "statement": "The HID report sent after each key event lists exactly the currently held non-modifier keys (up to six) and the modifier byte exactly the held modifiers.", "quantifier": "every sequence of key events", "why_tests_cant": "all sequences", "anchors": ["src/vkbd/usb-gadget.c: update_modifier_state, update_key_state, send_hid_report, vkbd_send_key"]}
{"id": "C51", "title": "Pointers to keyboards stay valid", "statement": "Every device bound to a keyboard is bound to one of the keyboards of the present configuration set, after any sequence of events, reloads, additions and removals; the active keyboard is such a keyboard or one of an earlier set. (The second case is a use after free; a witness is exhibited.)", "quantifier": "every run of the daemon", "why_tests_cant": "requires all interleavings of reload and device events", "anchors": ["src/daemon.c: reload, manage_device, active_kbd"]}
{"id": "C52", "title": "The keyboards of the daemon are engine histories", "statement": "At every moment of every run of the daemon, each keyboard is in a state reached from a parsed configuration file by engine calls, live binds and what other keyboards do to the shared clock; so the theorems about such states apply to the running daemon.", "quantifier": "every run of the daemon", "why_tests_cant": "a refinement between two levels", "anchors": ["src/daemon.c: event_handler, reload, load_configs", "src/keyboard.c: kbd_process_events, kbd_eval"]}
{"id": "C53", "title": "Configuration files and the files they include", "statement": "The text that is parsed is that of the configuration file line by line, with each line `include NAME` replaced by the contents of the named file, looked for beside the file and then in the data directory, or by nothing if the name has a dot or no such file can be read; includes inside included files are not followed; no file outside these two directories is read. (Limits, each with a witness: an included file without final newline runs into the next line; a last line without newline may be extended by stale memory; a line that starts with a NUL byte, and a text of exactly 65536 bytes, are accesses outside the buffers.)", "quantifier": "every file system, path and contents within the size limits", "why_tests_cant": "all file contents and include names", "anchors": ["src/config.c: resolve_include_path, read_file, config_parse"]}
{"id": "C54", "title": "Text sent by keyd input is typed exactly", "statement": "A message of type input is typed character by character: the key of the US keyboard (with shift where needed), space, newline and tab, or else the compose sequence of the character's place in the table, each followed by the pause asked for; then success is answered. The first character that cannot be typed stops it with an error answer, after exactly what precedes it. Nothing else in the daemon changes and every key pressed is released. (Text that ends inside a multibyte character aborts the daemon; witness.)", "quantifier": "every text below 4096 bytes, every pause up to 1000000, every state of the daemon", "why_tests_cant": "all texts and all Unicode characters", "anchors": ["src/daemon.c: input, handle_client", "src/unicode.c"]}
{"id": "C55", "title": "Macros sent by keyd do", "statement": "Trailing newlines are dropped; a macro expression that is refused sends nothing and is answered with an error; one that is accepted is played exactly as the macro says (wheel codes scroll) and answered with success. It leaves no key pressed that was not, and changes nothing else in the daemon.", "quantifier": "every text below 4096 bytes, every pause, every state of the daemon", "why_tests_cant": "all texts", "anchors": ["src/daemon.c: handle_client, send_key", "src/macro.c: macro_parse, macro_execute"]}
{"id": "C56", "title": "The client's messages reach the daemon whole", "statement": "keyd input/do send one message with the arguments joined by blanks, or standard input if there are none, and the pause given by -t; texts of 4096 bytes or more are refused before anything is sent; keyd bind sends each argument in turn and succeeds iff every answer is success; whatever amounts write takes and in whatever pieces read returns them, the daemon handles exactly the message sent; each documented command name or flag runs that command, anything else prints the help. (Exceptions with witnesses: early disconnection hangs the daemon; a failing read of standard input; an oversized bind expression after others; the empty command name.)", "quantifier": "every argument list, standard input, and sequence of results of read and write", "why_tests_cant": "all ways of splitting the transfer", "anchors": ["src/keyd.c: ipc_exec, read_input, input, cmd_do, add_bindings, commands, main", "src/util.c: xwrite, xread"]}
{"id": "C57", "title": "keyd list-keys lists the usable key names", "statement": "The lines printed are the names of the key table; each that is not blank stands for its key when written in a configuration; every key notation the parser accepts is made of a listed name; no name is listed twice. (Blank lines occur; witness.)", "quantifier": "every line, every key notation", "why_tests_cant": "all notations", "anchors": ["src/keyd.c: list_keys", "src/keys.c: keycode_table, parse_key_sequence"]}
{"id": "C58", "title": "The macro notation", "statement": "A valid UTF-8 text is accepted as a macro exactly if it is a sequence of blank-separated words, each a key with its modifiers, a group of keys and pauses joined by +, a pause in ms, or literal text, and it fits into 256 entries; its entries and the events it runs are those of its words in order; the notation is unambiguous. As an action, macro(...) stands for its body with escapes undone, and a key or single character for itself. (Witnesses: modifiers on keys of a group are ignored; untypable characters are skipped.)", "quantifier": "every valid UTF-8 text", "why_tests_cant": "all texts, all Unicode characters", "anchors": ["src/macro.c: macro_parse", "src/config.c: parse_macro_expression", "src/string.c: str_escape"]}
{"id": "C59", "title": "The action notation", "statement": "Whatever the right-hand side of a binding is read as is what it means: nothing, a key, a modifier's layer, a command, a macro, or a named action with arguments of its kinds in order, nested actions meaning the same recursively and referring to table entries that hold what they mean; lettermod stands for the overloadi/overloadt2 nesting. Every text that means something is read unless a table is full, a text that means nothing is refused, and later bindings leave earlier meanings alone. (Witnesses: text after the closing parenthesis and empty arguments are ignored; timeouts wrap at 65536.)", "quantifier": "every valid UTF-8 text, every configuration read so far", "why_tests_cant": "all texts, unbounded nesting", "anchors": ["src/config.c: actions, parse_fn, parse_command, parse_macro_expression, parse_descriptor"]}
{"id": "C60", "title": "What a configuration file as a whole means", "statement": "Every option has the value given last for it in any [global] section and its default otherwise; a key's alias is the one given last for it, the default aliases coming first; the layers are main, the five modifier layers and those the section headers declare, in order, with the modifiers, kind or constituents written, and no two have the same name; each key of each layer does what the last binding of that layer that means anything and is for that key (by alias or by name) says, and without one is unbound, except in main where an alias that is a key's name or the default modifier layer applies; the chords of a layer are exactly those its bindings with a plus sign make, one after another. (Witness: a layer whose name contains a dot cannot have bindings.)", "quantifier": "every text, every option, key and layer; for bindings texts whose values are UTF-8 and whose bindings fit the 512 byte buffer", "why_tests_cant": "all files", "anchors": ["src/config.c: config_parse, config_parse_string, parse_global_section, parse_alias_section, config_add_layer, new_layer, config_add_entry, set_layer_entry, config_init"]}
{"id": "C61", "title": "swap moves what keeps its layer on", "statement": "Pressing a key that layer D binds to swap(L): if D is toggled on, the toggle moves to L; otherwise if D is on as a oneshot layer, one oneshot moves to L; otherwise if a held key keeps D on (D neither main nor a layout nor composite), that key keeps L on instead; otherwise no layer changes. One activation goes from D to L, no other layer is touched, exactly these two changes are announced, the other held keys keep their bindings and the modifiers follow the layers now active. A held layer key keeps exactly one layer on through any number of swaps and its release lets go of exactly that one; releasing the swap key changes no layer. (Witness: the key chosen to hand over may be one that no longer holds the layer; then the daemon aborts.)", "quantifier": "all configurations, all reachable states, all events meanwhile", "why_tests_cant": "all histories of toggles, oneshots, held keys and repeated swaps", "anchors": ["src/keyboard.c: process_descriptor (OP_SWAP, OP_SWAPM), activate_layer, deactivate_layer"]}
{"id": "C62", "title": "The layer indicator shows whether a layer is active", "statement": "For a device whose configuration sets layer_indicator, as long as the device keeps its keyboard, nothing is reloaded and the host sends no LED event: every activation or deactivation of a layer of that keyboard writes its caps lock LED exactly once, nothing else does, no other LED is written, and once written the LED is on exactly when some layer other than main and the layouts is active. Devices of configurations without the option and devices without a keyboard are never written. (Witnesses: a reload leaves the LED lit with no layer active, a keyboard plugged in while a layer is active stays dark, a host LED event overrides the indicator.)", "quantifier": "all runs of the daemon, all keyboards, devices, configurations, clients and live binds", "why_tests_cant": "the LED is a side effect on every device of the keyboard, interleaved with all other keyboards and clients", "anchors": ["src/daemon.c: on_layer_change, event_handler (LED events)", "src/keyboard.c: activate_layer, deactivate_layer, setlayout"]}
{"id": "C63", "title": "No key is typed that nobody asked for", "statement": "Whatever the history of a keyboard (events, timeouts, live binds and resets), every key whose press is sent to the host is the code of an event the keyboard reported, or a modifier key, or a key that one of the configurations in force has on the right hand side of a binding: in a layer, in an action inside another one, in a chord or in a macro. A released key is one of these too, apart from the numbers that the release of a key group takes for keys. Every key that a configuration file or a live bind mentions is one with a name, so no file can make keyd press anything but named keys and those the keyboard reported.", "quantifier": "all configurations, all histories of events, timers and live binds, all file texts", "why_tests_cant": "stale pending descriptors, chord queues, repeat macros, and cached actions after a rebind could all send a code that belongs to nothing", "anchors": ["src/keyboard.c: process_event, process_descriptor, send_key, resolve_chord, handle_pending_key, execute_macro", "src/config.c: parse_descriptor, set_layer_entry", "src/macro.c: macro_parse, macro_execute"]}
{"id": "C64", "title": "What is written to the virtual devices they have declared", "statement": "In every run of the daemon, whatever devices, configurations, events, clients, texts and macros: a key pressed at the host is one with a name in keys.c (so never noop's neighbours, a chord code or code 0); every event written to the virtual keyboard or pointer is of a type and code that device declared when it was created; buttons and motion go to the pointer and everything else to the keyboard; the keyboard declares every key with a name, the nine lights and no motion. (Witnesses of the exceptions: voicecommand is passed on but never declared, so the kernel drops it; a pause inside a key group is released as if it were a key; an absolute coordinate of 0 is never sent, so a touch device cannot reach the left or top edge.)", "quantifier": "all runs of the daemon, all device events, clients and configuration texts", "why_tests_cant": "the kernel silently drops undeclared events, so a test sees a missing key press at best; the codes come from eight different places", "anchors": ["src/vkbd/uinput.c: create_virtual_keyboard, create_virtual_pointer, write_key_event, vkbd_mouse_move, vkbd_mouse_move_abs, vkbd_mouse_scroll", "src/device.c: device_read_event", "src/daemon.c: send_key, input, handle_client, event_handler"]}
{"id": "C65", "title": "What keyd takes a device for, and the id it gives it", "statement": "A node in /dev/input is used exactly when it answers every question and is like a keyboard (it has all the digits and the letters q to y, or a brightness up or volume up key) or moves a pointer; the kind recorded is the kind it is. Its id is the vendor and the product as four hexadecimal digits each and a number computed from name, axes and keys; so an [ids] line vvvv:pppp names exactly the devices of that vendor and product, and lines with capitals or foreign characters name none. Equal traits give equal ids, a difference in a single trait different ones. keyd's own virtual devices are recognised as such and never get a configuration and are never grabbed, in any run. (Witnesses: ids are not unique, those of devices with long names change with the node, and a keyboard that does not tell its name leaves a descriptor open.)", "quantifier": "all device nodes, all runs of the daemon", "why_tests_cant": "the space of capability masks and names is astronomically large and needs hardware; the loop that results from grabbing one's own device appears only in combination", "anchors": ["src/device.c: resolve_device_capabilities, generate_uid, device_init", "src/config.c: config_check_match", "src/vkbd/uinput.c: create_virtual_keyboard, create_virtual_pointer"]}
{"id": "C66", "title": "Every device has the configuration the files choose for it", "statement": "At every moment of every run of the daemon: the configurations in use are those of the files accepted when the files were last read (at the start or by the last reload a client asked for), and every device in the table, whenever it was plugged in and whatever was plugged in, unplugged or reloaded since, is bound to exactly the file that the rules in the [ids] sections choose for it, or to none if they choose none or another program holds the device; it is grabbed exactly while bound; the keyboard it is bound to exists and has the configuration of that file.", "quantifier": "all runs of the daemon: all devices, plugging and unplugging, clients, reloads and file texts", "why_tests_cant": "the binding is kept in pointers that survive reloads and a table that is compacted on removal; every order of these events matters", "anchors": ["src/daemon.c: manage_device, remove_device, reload, load_configs, lookup_config_ent, event_handler", "src/device.c: device_grab, device_ungrab", "src/evloop.c: evloop"]}
{"id": "C67", "title": "When the daemon's behaviour is undefined, and when it aborts", "statement": "In every run of the daemon in which no client binds a key in the middle of a chord, handling an event is undefined exactly in these cases: the keyboard last used was freed by a reload and its timer runs, a button of a mouse without configuration is passed to it, or a new listener is told its layers; motion overflows a counter of scroll mode; or a reload reads a file whose parsing is undefined. It aborts only at the limits of the engine, at more than five arguments or a UTF-8 sequence that is cut short in a binding, at such a sequence in a client's text, or at a file whose parsing aborts. So as long as nobody reloads or binds keys and the devices' values are ordinary (motion below 2^31 - 2^15, positions below 2^21 on axes that have a range) nothing is ever undefined, and the daemon ends only at the limits of the engine, at a client's broken UTF-8 and at the 65th device. (Witnesses: the counter overflow, a division by zero for axes without a range.)", "quantifier": "all runs of the daemon: all devices, events, times, clients and texts", "why_tests_cant": "undefined behaviour need not show in a test, and the states in which it is reached are combinations of configurations, clients and devices", "anchors": ["src/daemon.c: event_handler, handle_client, add_listener, reload, process_keypress", "src/device.c: device_read_event", "src/evloop.c: evloop", "src/keyboard.c: kbd_process_events"]}
{"id": "C68", "title": "The daemon never hangs", "statement": "Whatever has happened to the daemon before, the handling of any event and every round of the event loop come to an end, whatever the devices, clients and files deliver; so does the whole life of the process for any sequence of rounds. The result does not depend on the depth of recursion the model is allowed. In a run without reloads and binds and with ordinary values of the devices, every round has a next state unless one of the documented limits is met.", "quantifier": "all runs of the daemon: all devices, events, times, clients, texts and files", "why_tests_cant": "termination concerns all executions; recursion between chords, undecided keys and macros makes bounded exploration meaningless", "anchors": ["src/evloop.c: evloop", "src/daemon.c: event_handler, handle_client, input, reload", "src/keyboard.c: kbd_process_events, process_event", "src/config.c: config_parse, config_add_entry"]}
{"id": "C69", "title": "The engine refines a simple machine", "statement": "For every configuration without chords and keys decided later, and without toggle if there is swap, for every sequence of events and of passing time, everything keyd writes to the host, says about layers and runs, in order, is what a small reference machine does that only knows: the held keys with the action chosen at their press, the layers toggled, on for one key, and the order in which layers were switched on, the layout, when a key was last typed, where the held keys sit (for swap only), and what the host sees. It has no activation counters, no clock, no slots, no queues and no timers list. The layers on, the keys down and the remembered actions agree as well. The only bounds are those of the code: 16 held keys (part of the machine) and fewer than 200 oneshot layers outstanding (counters are one byte, C05_255_refuted); without oneshot keys there is no bound.", "quantifier": "all such configurations, all finite sequences of events with any times, all clocks shared with other keyboards (at least 2 if there are layouts besides main)", "why_tests_cant": "Whole-run equivalence with an independent specification quantifies over every configuration and every event sequence; the interplay of counters, timestamps and slots only shows in rare combinations of nested, repeated and overlapping layer keys.", "anchors": ["src/keyboard.c:22-57", "src/keyboard.c:176-241", "src/keyboard.c:243-452", "src/keyboard.c:478-803", "src/keyboard.c:805-843", "src/keyboard.c:1122-1207"]}
{"id": "C70", "title": "What keyd prints is what it is told to say", "statement": "A message printed by keyd is its format with every mark r{...}, g{...} etc. replaced by the colour (or, without colours, by nothing) and every conversion by its argument, and it is printed exactly if its level is not above the verbosity; text of arguments (names of devices, keys or file contents) is never interpreted as marks or conversions. All formats in the program are of the kind for which this holds. keyd monitor prints, for every sequence of events, exactly one line per key event and per device that comes or goes, with the milliseconds since the previous event when asked, and ends at the first error of stdout; this is undefined exactly when a key without a name occurs before the end, which the kernel codes 0 and 196 to 199 are. (Witnesses: a format of 1024 bytes is written behind the buffer; such a key; the terminal's modes afterwards are not those before.)", "quantifier": "all formats, arguments, verbosity levels, sequences of monitor events with their times, terminal modes", "why_tests_cant": "Names come from hardware and files, so any byte string can occur; the buffers and the escapes only fail for particular lengths and characters that tests do not contain.", "anchors": ["src/log.c: colorize, _keyd_log, die", "src/monitor.c: event_handler, monitor, set_tflags, cleanup", "src/vkbd/stdout.c", "src/keys.h: KEY_NAME"]}
{"id": "C71", "title": "Every device that appears is noticed", "statement": "However the kernel groups the records about new nodes in /dev/input into reads (whole records, each with a name), keyd opens exactly the nodes whose name starts with event, in the order in which they were made, each once, and waits for the next record in the state in which it started; at the start it opens exactly the event nodes found in the directory, and it aborts exactly if there are more than 64 of them, however few are keyboards or mice. (Witnesses: a record without name at the end of a read, which the kernel sends when its queue overflows, reads bytes of an earlier record and announces a device a second time; a node made between the creation of the descriptor and the scan is added twice.)", "quantifier": "all directories, all sequences of records and their grouping into reads, all outcomes of opening a device", "why_tests_cant": "The grouping depends on timing; the static buffer and its two positions survive between calls, so faults appear only for particular sequences of reads.", "anchors": ["src/device.c: device_scan, device_worker, devmon_create, devmon_read_device", "src/evloop.c: evloop"]}
{"id": "C72", "title": "Every request of a client is answered once, and bind acts on every keyboard", "statement": "In every run of the daemon the answers sent so far are, one for one and in the order of the requests, those to the clients whose requests were received so far; only a listener that is not refused gets none, and nobody else is sent one. A request over the limits or of an unknown kind is answered with failure and changes nothing. A bind request applies the expression to every keyboard, answers success exactly if one of them accepts it, and changes nothing else: no key, no layer message, no device, no timer; if it answers failure, no binding of any keyboard has changed. bind reset gives every keyboard exactly the bindings of the file it was loaded from, whatever was bound before. (Witness: success although one of the keyboards refused the expression.)", "quantifier": "all runs of the daemon: all clients, requests, texts, files, devices and times", "why_tests_cant": "A missing or second answer blocks or confuses a client only in particular combinations of request and state; the run-long bookkeeping concerns all executions.", "anchors": ["src/daemon.c: handle_client, send_success, send_fail, add_listener", "src/keyboard.c: kbd_eval", "src/config.c: config_add_entry"]}
{"id": "C73", "title": "One daemon at a time", "statement": "However many keyd daemons are started and ended, at whatever moments and with whatever interleaving of their steps, at most one of them has passed the lock; while it serves, the address of the socket leads to its socket, its group can connect and others cannot, and neither another start nor another end disturbs that. A keyd that finds the lock taken ends and leaves everything as it is. The lock is taken exactly while such a daemon, or a command that one has started, is running; once neither is, the next keyd serves at the address whatever was left there. (Witnesses: a command that outlives the daemon has inherited the descriptors of the lock and of the socket, so the next keyd refuses to start and clients connect to a socket nobody serves; a child whose execl fails goes on as a second daemon; with an umask of 0 everybody can connect for a moment before chmod.)", "quantifier": "all numbers of processes, all interleavings of their steps, all moments at which they end, all umasks, all commands run", "why_tests_cant": "Races between processes and descriptors inherited by children depend on scheduling and on which programs users run; a test sees one interleaving.", "anchors": ["src/ipc.c: ipc_create_server", "src/daemon.c: run_daemon", "src/keyboard.c: execute_command"]}
{"id": "C74", "title": "With keys decided later the engine is still a simple machine", "statement": "Put around the simple machine of C69 one key that may wait, the queue of what was struck since, and the events still to be struck again: a key decided later (overloadt, overloadt2, timeout, also below overloadi or one another) waits; releases of keys struck before it go through, everything else is queued; the verdict is hold at the time limit, tap when the key itself comes again, and before that hold at another key's release (overloadt2) or tap at another key's press (timeout); then the key begins with that action and the queue is struck again, where each event may start another wait. For every sequence of calls of the engine there are turns of this machine with the same events given and nothing left to be struck again after which everything said, the keys down at the host, the layers on, the keys held with their actions, the key that waits and its queue are those of the engine.", "quantifier": "all configurations without chords, with toggle or swap but not both, all sequences of events and times", "why_tests_cant": "A refinement between two levels; nested waits and replayed queues multiply the interleavings beyond any test set.", "anchors": ["src/keyboard.c: kbd_process_events, process_event, handle_pending_key, process_descriptor (OP_OVERLOAD_TIMEOUT, OP_OVERLOAD_TIMEOUT_TAP, OP_TIMEOUT, OP_OVERLOAD_IDLE_TIMEOUT)"]}
{"id": "C75", "title": "The daemon is a system of simple machines", "statement": "Take one machine of C69 for every configuration file. In every run from start up, whatever the devices deliver, whenever devices come and go, and whoever listens, the keys written to the virtual keyboard, the commands given to the shell and the pauses are, in order, exactly what these machines say when each is given: the key events of the devices bound to it, a stroke of a wheel key for every step of a wheel, a stroke of external mouse when a mouse without configuration is used while its device was the last used, and the timer events that come while its device was the last used; no machine is given anything else, none influences another, and the keys for wheels are not written. After a reload the same holds from there on with machines of the new configurations that begin anew, the last used device forgotten.", "quantifier": "all runs of the daemon with configurations as in C69 and no bind, input, macro or reload request; all devices, all reads, all rounds of the loop", "why_tests_cant": "It is a refinement of the whole program (device layer, event loop, handler, engine) by a small specification; interference between keyboards and lost or doubled events show only in particular interleavings.", "anchors": ["src/daemon.c: event_handler, process_keypress, manage_device, reload, send_key", "src/evloop.c: evloop", "src/keyboard.c: kbd_process_events", "src/device.c: device_read_event"]}
{"id": "C76", "title": "The daemon is a system of simple machines, also with keys decided later", "statement": "As C75, with the machines of C74 (one key of each may wait to be decided): in every run, from start up or from any accepted reload on, there is a course of these machines, each given exactly the key events of its devices, strokes for wheel steps and foreign mice, and timer events that come while its device was the last used, in that order, in which after every event nothing is left to be struck again, and the keys, commands and pauses written are exactly what the machines say, in order. A key waiting on one keyboard holds back nothing struck on another. A reload forgets waiting keys and their queues.", "quantifier": "all runs of the daemon with configurations without chords, with toggle or swap but not both, and no bind, input, macro or reload request; all devices, all reads, all rounds of the loop", "why_tests_cant": "It is a refinement of the whole program including nested waits and replays on several keyboards that share one clock and one virtual keyboard; the interleavings are beyond any test set.", "anchors": ["src/daemon.c: event_handler, process_keypress, manage_device, reload, send_key", "src/evloop.c: evloop", "src/keyboard.c: kbd_process_events, handle_pending_key"]}
{"id": "C77", "title": "With chords, too, the engine is a simple machine", "statement": "Put around the machine of C74 an attempt at a chord and three places for chords held: keys that may become a chord of a layer that is on are held back; when they are one and no longer one is possible (or the time between keys has passed) and it was kept down as long as asked, the chord takes the first free place and begins like a key, with the action of that chord in the newest layer, and what was held back beyond its keys is struck again; when they are none, all of them are struck again in order. The release of a key of a chord held belongs to that chord, and with its last key the chord ends. For every configuration (toggle only without swap) and every sequence of calls of the engine, whatever the codes and times, there are turns of this machine with the same events given and nothing left to be done after which everything said, the keys down at the host, the layers on, the keys and chords held with their actions, the key that waits with its queue, and the keys held back are those of the engine.", "quantifier": "all configurations with toggle or swap but not both (chords of any keys in any layers, with any timeouts), all sequences of events and times", "why_tests_cant": "A refinement between two levels; chords, waiting keys and replays nest in each other, and the interleavings are beyond any test set.", "anchors": ["src/keyboard.c: kbd_process_events, process_event, handle_chord, resolve_chord, abort_chord, check_chord_match, chord_event_match, enqueue_chord_event, handle_pending_key, lookup_descriptor"]}
{"id": "C78", "title": "The daemon is a system of simple machines, also with chords", "statement": "As C75 and C76, with the machines of C77: in every run, from start up or from any accepted reload on, there is a course of these machines, each given exactly the key events of its devices, strokes for wheel steps and foreign mice, and timer events that come while its device was the last used, in that order, in which after every event nothing is left to be done, and the keys, commands and pauses written are exactly what the machines say, in order. Keys held back for a chord on one keyboard hold back nothing struck on another. A reload forgets attempts at chords and chords held. Nothing is asked of the codes the devices deliver.", "quantifier": "all runs of the daemon with configurations that have toggle or swap but not both, and no bind, input, macro or reload request; all devices, all reads, all rounds of the loop", "why_tests_cant": "It is a refinement of the whole program including attempts at chords on several keyboards that share one clock and one virtual keyboard; the interleavings are beyond any test set.", "anchors": ["src/daemon.c: event_handler, process_keypress, manage_device, reload, send_key", "src/evloop.c: evloop", "src/keyboard.c: kbd_process_events, handle_chord, handle_pending_key"]}
{"id": "C79", "title": "Which configuration files the simple machine describes", "statement": "A file that keyd accepts is described by the simple machine of C77 if and only if it does not bind both toggle and swap (togglem and swapm included), no overload has as its tap a key decided later (overloadt, overloadt2, timeout) or an idle overload, and no idle overload leads to another idle overload: whatever else stands in it, whatever its length. For these files everything said, the keys down at the host and the layers on are the machine's after every sequence of calls, and a daemon that loaded only such files, at its start or at a reload, writes what the system of these machines says.", "quantifier": "all configuration texts, all sequences of events and times; all runs of the daemon as in C78", "why_tests_cant": "The set of files is infinite; that three conditions on the bindings are all that is needed rests on the parser never producing a reference to main, to a layout or to a missing layer, macro or action, and never a cycle of nested actions.", "anchors": ["src/config.c: config_parse_string, parse_descriptor, config_add_entry, set_layer_entry", "src/keyboard.c: kbd_process_events, process_descriptor", "src/daemon.c: load_configs, reload"]}
{"id": "C80", "title": "With bindings changed while keys are held the engine is still a simple machine", "statement": "Let the machine of C77 run with the bindings of a file, and let bindings be changed and reset by clients at any moments except in the middle of an attempt at a chord. Then for every sequence of calls and bindings there are turns of the machine, with the same events given and the same bindings made in the same order, after which everything said, the keys down at the host, the layers on, the keys and chords held with their actions and the key that waits are those of the engine. All a binding does to the machine is that another configuration is consulted from there on: a key held keeps the action it began with and ends it at its release, a key that waits is decided as at its press, and layers stay on. (Witness: after a reset the parts of nested actions are numbered anew, and the tap of a held overload bound before becomes what was bound after.)", "quantifier": "all accepted files and bindings with toggle or swap but not both, swap in the file from the start or never, all sequences of events, bindings, resets and times", "why_tests_cant": "A binding may come between any two events of any key, chord or wait; that nothing held or pending is disturbed concerns all states and all bindings at once.", "anchors": ["src/keyboard.c: kbd_eval, process_event, kbd_process_events", "src/config.c: config_add_entry, set_layer_entry"]}
{"id": "C81", "title": "The daemon is a system of simple machines whatever its clients ask", "statement": "Take any run of keyd: it starts with some files, key events arrive on any keyboards, time passes, mice are used, devices come and go, and clients ask in any order for text or macros to be typed, for bindings to be made or reset and for the files to be loaded again. Then everything written to the virtual keyboard, in order, is what a small system writes: one machine of C77 per file; a key event moves the one machine of its keyboard; what is typed for a client depends on its message alone and moves no machine; a binding changes the configuration that each machine consults and nothing else; a reload replaces the machines by fresh ones, one for each file that can be read, after releases only, each key at most once, that leave no key down. The bindings in force are those of the system.", "quantifier": "all files and bindings of the class of C79, all runs of the daemon with all requests; no binding while a chord is tried, swap bound from the start or never", "why_tests_cant": "The interleavings of events on several keyboards with requests of several clients and reloads are unbounded; that none of them leaves more behind than the system says is a statement about all of them.", "anchors": ["src/daemon.c: event_handler, handle_client, input, reload, clear_vkbd, load_configs, process_keypress, manage_device, send_key", "src/evloop.c: evloop", "src/keyboard.c: kbd_eval, kbd_process_events"]}
{"id": "C82", "title": "What a client prints and returns is what the daemon answered", "statement": "Whatever amounts the system writes and reads at a time, in both directions: a client that comes to an end after an answer has sent its whole request, has printed exactly the text of the answer on a line of its own (nothing if there is none), and never looks outside the answer; it does come to an end if what it writes is taken. keyd input and keyd do are always answered and return 0 for success and 1 for failure; keyd reload prints nothing and returns 0, the reload being over; keyd bind prints the failures in order, Success exactly if there were none, and returns 0 or 255. keyd listen prints at every moment a prefix of the greeting and of the announcements of what the engines did since, and all of it if it has received all and standard output takes it. (Witnesses: the client of a daemon that dies waits for ever; a client that hangs up ends the daemon; without a configuration every bind fails.)", "quantifier": "all requests, all answers with a text that fits errstr, all results of the system calls; for keyd listen all runs of the daemon while the listener is connected", "why_tests_cant": "The pieces in which bytes are taken and arrive are chosen by the system; tests see the common case of one piece.", "anchors": ["src/keyd.c: ipc_exec, add_bindings, cmd_do, input, layer_listen, reload", "src/daemon.c: send_success, send_fail, handle_client, add_listener", "src/util.c: xwrite, xread"]}
{"id": "C83", "title": "What happens outside of a keyboard does not reach it", "statement": "Two keyboards with the same configuration, made at whatever times and asked the same (the same calls with the same events, the same bindings), while other keyboards advance the shared activation clock and scroll motion is added in whatever way at whatever moments, write exactly the same, return the same delays, hold the same keys, bindings and layers, and meet the same outcome at the next call, even if it is an abort or undefined behaviour. In particular a keyboard in company behaves like one that is alone. (False for the first activation after the start of the daemon, whose stamp is that of a layout.)", "quantifier": "all configurations (not only parsed ones), all lists of calls and bindings, all interleavings with what happens outside, all clocks from 2 on", "why_tests_cant": "A relation between two unbounded executions with arbitrary interference.", "anchors": ["src/keyboard.c: get_time, activate_layer, lookup_descriptor, check_chord_match, kbd_process_events, kbd_eval", "src/daemon.c: event_handler"]}
{"id": "C84", "title": "No deadline of the keyboard in use is missed", "statement": "Handling being prompt, take any moment at which the main loop waits, the keyboard p to which the last call of an engine went, provided that since then no device of another keyboard has said anything and nothing was loaded. For every moment t after that call at which the keyboard has to do something by itself (decide a key, end a oneshot, go on with a macro, give up a chord), the loop is set to wake up later than now and not later than t; and when it returns from its wait at t or later, the first thing it does is to call the engine of p, in the state in which p was left. Neither client messages other than reload, nor devices without a configuration, nor devices coming and going change that. (False with a second keyboard: a key on it, or a mere motion of a mouse with a configuration of its own, and the key waiting on the first is not decided when it is due, the loop waiting without a limit.)", "quantifier": "all configuration files, all devices, all runs of the loop with prompt handling, all requests of clients", "why_tests_cant": "The timer is recomputed at every event of every device and message; that none of the interleavings loses a deadline, and which ones do, is a statement about all histories.", "anchors": ["src/evloop.c: evloop", "src/daemon.c: event_handler", "src/keyboard.c: kbd_process_events, schedule_timeout, calculate_main_loop_timeout"]}
{"id": "C85", "title": "The bindings of a window are those of its sections and nothing else", "statement": "keyd-application-mapper reads app.conf as a grammar says ([class] or [class|title] followed by bindings, comments and blank lines ignored), and ends with an exception exactly if a binding comes before the first section. At every change of the focus, whatever windows came before, it asks for reset followed by the bindings of all sections of the present file whose filters suit the window, in the order of the file; the window's class and title are its words in lower case joined by hyphens, and a filter suits as its wildcards say. A filter with anything but small letters, digits, hyphens and wildcards suits no class at all. When the daemon has handled the requests, whatever it did before and in between, the configuration of every keyboard is that of its file with these bindings applied in order: nothing is left of the windows before. (False: that every expression may stand in a section, since [ = ] is taken for a header; that a window's own class suits it; that the file is always up to date if written while the script starts; under Gnome, that a reload signal is about the present window.)", "quantifier": "all texts of app.conf, all histories of windows and changes of the file, all windows, all behaviours of the library for brackets, other alphabets and encodings; all states of the daemon and all events in between except reload", "why_tests_cant": "Unbounded texts, patterns and histories; that nothing of earlier windows is left is a relation between histories.", "anchors": ["scripts/keyd-application-mapper: parse_config, lookup_bindings, normalize_class, normalize_title, on_window_change, GnomeMonitor.run", "src/keyd.c: add_bindings", "src/daemon.c: handle_client", "src/keyboard.c: kbd_eval"]}
{"id": "C86", "title": "What is written is what applications show", "statement": "With the compose file that comes with keyd, an application on a US keyboard shows exactly the text that was asked for: the text of any macro consisting of words of text, in any characters of the keyboard and of the Unicode table (whatever the macro sequence timeout; U+0080, the first of the table, is not typed by macros), and the text of any message of type input. For whatever version of the Unicode data the compose file and the table of unicode.c are generated from, the keys that are typed for a character of the table compose to that character, provided the table has no more than 46656 places; with one more, two characters share their keys (witness).", "quantifier": "all texts of Unicode data for the generator; all texts of macros and messages, all daemon states, all timeouts, all texts shown before", "why_tests_cant": "There are 34493 characters and unboundedly many texts; the keys and the compose file are generated independently of each other, and composing is stateful.", "anchors": ["scripts/generate_xcompose", "data/keyd.compose", "src/unicode.c: unicode_table, unicode_lookup_index, unicode_get_sequence", "src/macro.c: macro_parse, macro_execute", "src/daemon.c: input, handle_client"]}
{"id": "C87", "title": "A keyboard that is left alone comes to rest", "statement": "Whatever happened before: with nothing undecided and no macro repeating, a keyboard that is left alone asks for at most as many calls as it has timers, stays without anything undecided, and sends nothing in them but the end of oneshot layers with the modifiers that follow from it; with no oneshot waiting it sends nothing at all. After these calls it asks for no more, unless one of them aborts the daemon because a layer is deactivated more often than activated (C05), which does not happen while every waiting oneshot is one of the activations of its layer, so after every history of the configurations of C26. A call without a deadline changes no output, layer or held key. With a macro repeating this is false even if no key is held: overload(nav, macro2(300, 50, macro(x y))), tapped, types without end until the next key event.", "quantifier": "all configurations, all histories, all moments of the calls", "why_tests_cant": "That it ends is a statement about runs of every length; timers may still be left over from anything that happened earlier.", "anchors": ["src/keyboard.c: process_event, calculate_main_loop_timeout, schedule_timeout, clear_oneshot, process_descriptor (OP_OVERLOAD, OP_MACRO2)"]}
{"id": "C88", "title": "No macro repeats without a key held", "statement": "Whatever was pressed, released, decided late or rebound before: while the table of held keys is empty, no macro is repeating, for all configurations in which no overload() has a macro2(), or an overloadi() with a macro, as its action. So with every key up, nothing undecided and every waiting oneshot among the activations of its layer, a keyboard that is left alone comes to rest, sending nothing but the end of oneshot layers. For the configurations of C25 this holds as soon as all physical keys are released. With such an overload() it is false (witnesses here and in C87).", "quantifier": "all such configurations, all histories of events, rebinding and outside influence", "why_tests_cant": "Macros may be started by presses, by late decisions, by chords and by the replay of queued keys; that every one of them ends with its key is an invariant of all histories.", "anchors": ["src/keyboard.c: process_descriptor (OP_MACRO, OP_MACRO2, OP_OVERLOAD, OP_OVERLOAD_IDLE_TIMEOUT), process_event, handle_pending_key, resolve_chord, cache_set"]}
