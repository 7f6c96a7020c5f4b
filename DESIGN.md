# Formal model of keyd: design

Target: rvaiya/keyd as found in /repo (read as text, never built or run).
Prover: Coq 8.16.1, standard library only.

## Trusted base

* Coq's kernel (and `coqchk`), plus whatever `Print Assumptions` lists under
  each property theorem (expected: "Closed under the global context").
* `coqchk` lists seven axioms of the library module Coq.ssr.ssrunder: they are
  loaded by the standard tactic `lia` (through ZifyClasses) and no theorem here
  depends on them, as the `Print Assumptions` after each theorem shows.
* The hand translation of the C code into Gallina.  Every definition cites the
  file and lines it models; simplifications are stated at the definition.
* The C semantics assumed: `assert` is live (the Makefile does not define
  NDEBUG), `long`/`int` time stamps do not overflow (times are unbounded `Z`),
  `uint8_t` counters wrap modulo 256, `uint16_t` timeouts modulo 65536.

## Shape of the model

| file | models |
|------|--------|
| `Base.v` | outcome type (`Ok`, failed assertion, undefined behaviour, out of fuel), strings as byte lists |
| `Keys.v` | `keys.h`/`keys.c`: codes, modifiers, key name table, key sequence / modifier set parsers |
| `Types.v` | `config.h`, `keyboard.h`, `macro.h`: data types |
| `Kbd.v` | `keyboard.c` function by function; `macro.c: macro_execute` |
| `Str.v`, `UnicodeTable.v`, `MacroParse.v`, `MacroExec.v`, `Ini.v`, `Config.v` | `string.c`, `unicode.c`, `macro.c`, `ini.c`, `config.c` |
| `ReadFile.v` | `config.c`: `read_file`, `resolve_include_path`, `config_parse` from the path; the file system is a function from paths to contents |
| `Match.v` | `config.c: config_check_match`, `daemon.c: lookup_config_ent` and the device flags of `manage_device` |
| `Outside.v` | what happens to a keyboard without a call of its engine: the activation clock is shared, scroll motion |
| `Device.v` | `device.c`: `device_read_event`, `resolve_device_capabilities` as inputs; the event codes of the kernel |
| `Gadget.v` | `vkbd/usb-gadget.c`: HID reports |
| `Daemon.v` | `daemon.c` (virtual keyboard state, listeners, LEDs, clients, reload, device table, `event_handler`) and the loop of `evloop.c` with the panic sequence |
| `Client.v` | `keyd.c` (the client: messages of `bind`, `input`, `do`, the command table, `list-keys`) and `util.c` (`xread`, `xwrite`), with what each system call returns as input |
| `Answer.v` | `daemon.c: send_success, send_fail` and what `keyd.c` does with the answer: `ipc_exec`, `reload`, `add_bindings`, the loop of `layer_listen` |
| `Log.v` | `log.c` (`colorize`, `_keyd_log`, `die`), the formats of all messages, the conversions of printf they use, `monitor.c`, `vkbd/stdout.c` |
| `DevMon.v` | `device.c`: `device_scan`, the buffer of `devmon_read_device` byte by byte |
| `Ipc.v` | `ipc.c: ipc_create_server`, the start in `daemon.c: run_daemon`, `keyboard.c: execute_command`: many processes on one system, their steps interleaved |
| `Mapper.v` | `scripts/keyd-application-mapper`: app.conf, filters, names of windows, what is asked of `keyd bind`, the loop of the Gnome monitor; library functions for brackets, other alphabets and encodings are inputs |
| `Compose.v` | `scripts/generate_xcompose`: the codes read from Unicode data (hexadecimal digits only), base36, the lines of `data/keyd.compose`, the table of `unicode.c` as an array and its lookup. The shipped `data/keyd.compose` and `unicode.c` were compared byte by byte with the output of this generator on `data/unicode.txt` by a script outside Coq |
| `Validation.v` | tests, not proofs: every scenario of `/repo/t/*.t` replayed on the model (configuration text parsed by the model of the parser) |

Specification files (`Spec*.v`) define the vocabulary in which the properties
are stated, without using the functions of the model; `*Proofs.v`, `Steps.v`,
`Hist.v`, `Engine.v`, `Wf*.v`, `ParseWf.v` hold the proofs; `Prop*.v` hold the
property theorems, each with `Print Assumptions` and an example.

* `Steps.v`: every function of the engine as a sequence of primitive steps.
* `Hist.v`, `SpecHist.v`: histories (`reach`, `run_to`, `history`).
* `Engine.v`: `process_event` split into plans, and the principle `lift` which
  lifts an invariant through the recursion.
* `Wf.v`, `WfEvents.v`, `WfHist.v`, `ParseWf.v`: well-formedness.

* `Inv.v`, `ClassInv.v`, `LiftOk.v`: invariants over classes of configurations;
  `KeptProofs.v` (C07), `Account.v` (C26), `NoAbort.v` (C05).

Undefined behaviour (index outside an array, NULL dereference) is a separate
outcome `UB`; failed assertions are `Crash reason`.  `process_event` is
recursive through queue replays; it is written with fuel and an explicit
out-of-fuel outcome, and a theorem states that enough fuel always exists.

Output is a trace kept in the keyboard state: key events sent to the virtual
keyboard, layer change notifications, commands run, pauses.

## Not modelled

Memory layout and aliasing beyond the explicit bounds checks; the OS (evdev,
uinput, sockets, fork/exec, poll) except as explicit inputs; how the application mapper finds the focused window; of the
command line the help and version texts and connecting to the socket; when the daemon logs which message (`Log.v` is about what a
message looks like); integer overflow of time stamps; the dead
fields `tap_expiry` (never non-zero), `overload_last_layer_code`,
`chord.start_code` and the never assigned behaviour `PK_INTERRUPT_ACTION2`.

In `Daemon.v`: messages arrive whole (C56_delivered is about how they do); whether a write to a listener
succeeds is an arbitrary function of the number of writes so far; the texts of
the configuration files and whether a grab succeeds are inputs of each reload;
the loop may serve any number of clients per round (the code serves one);
EV_FD_ERR, the thread behind `ipc.c` and the exit paths of `xread`/`xwrite` are
left out; the time stamp of the first EV_DEV_ADD, uninitialised in the code, is
an arbitrary parameter.  In `Daemon.v` devices appear in any order; `DevMon.v` models `device_scan`
(its threads one after the other) and the inotify buffer of `devmon_read_device`.  A pointer to a keyboard is a pair of the number of the
`load_configs` call and a place in the list; using one of an earlier call is UB.

## Properties: what is modelled and how it is proved

(see properties.jsonl for the statements; MANIFEST.json for status)

* C01, C02: state/trace invariant relating the engine's key table to the
  trace, preserved by every engine primitive, lifted to `process_event` and
  histories by induction on fuel and on the history.
* C03, C30: a measure on states (queued events, undecided key, depth of the
  action tree it holds) decreases along every replay; the result of a batch is
  independent of the fuel once it is large enough.  The outer driver of C30 is
  the separate relation `driven` of SpecTerm.v.
* C04, C05: well-formedness invariant of configuration and state; witnesses
  for every reachable assertion by computation.
* C06: declarative specification of "the" winning layer, compared with the
  loop of `lookup_descriptor`.
* C07: the cache entry of a held key is preserved by all events on other keys.
* C08, C09: characterisation of `update_mods` / `set_mods`.
* C10, C11, C12, C13, C18, C22, C23, C28, C29: per-step theorems over
  arbitrary states, invariants over histories where stated.
* C15-C17, C19: `SpecDefer.v` describes a key whose press is decided later (which
  events settle it, which are kept, which pass as those of keys held before) without
  the queue of the engine; `DeferProofs.v` shows by induction over the events between
  press and decision, timers included, that the engine follows it.  The events must
  not start or belong to a chord attempt (`apart`); C19_chordless discharges this for
  configurations without chords.  The pending key keeps `last_code`, so a bystander
  overload key cannot tap (lemma overload_released).
* C14: invariant over everything that may happen between press and release of the
  overload key (`meanwhile`): as long as `last_code` still names it, `ovl_start` is the
  time of its press and no key has entered the cache since; a key that enters the cache
  changes `last_code` for good (`OverloadProofs.v`).  Without presses (`undisturbed`)
  `last_code` stays.  No action list may contain swap, as in C07.
* C20, C21: `SpecChord.v` defines when struck keys begin, complete or win a chord, without
  reference to the engine's matching loop; `check_spec` (`ChordProofs.v`) proves the loop
  computes that.  Induction over the strokes with the timers in between (`attempt`,
  `arrive`, `held_on`).  "As if no chord existed" is a lockstep proof with the keyboard
  whose configuration has no chords (`ChordBare.v`: `no_chords`).  The release side is an
  invariant over everything that can happen while one key of the chord is down
  (`ChordLife.v`: `during_kept`), with the same exceptions as C07.  The premises: nothing
  undecided when the first key is struck, `chord_timeout` above 0 (else
  `C21_zero_refuted`), a free slot whose code is not in use (else `C20_reuse_refuted`), no
  oneshot expiring and no macro repeating before the attempt ends.  Attempts that start
  while a key is undecided are not covered (`C19_chords_refuted`).
* C24: invariant "future deadline implies timer" over histories with a clock that does
  not run backwards (`timeline`), chords and live rebinds included (`TimelyProofs.v`);
  `left_alone` describes a caller who only follows the returned delays.  Late decisions:
  `C24_late_refuted` and the two after it.
* C25: invariant over histories that ties every pressed key to a held key whose action
  answers for it, and every pressed modifier to an active layer or to such a key
  (`StuckProofs.v`); a second one ties the keys the engine remembers to the physical ones,
  through the queue of an undecided key (`StuckLife.v`, without chords); a third one,
  through the parser and live rebinds, that macros release what they press
  (`MacroLife.v`).  The first wording allowed toggled layers next to any oneshot layer;
  `C25_toggle_refuted` shows it false and the class was narrowed.  With chords the
  theorem starts from what the engine remembers (`C25_no_stuck`), because
  `C25_chord_refuted`.
* C26: accounting invariant over histories for a syntactic class of
  configurations; refutations for the rest by computation.
* C27: macro executor against an independent element-wise specification
  (`SpecNotation.v`, `MacroProofs.v`); every parsed macro is an encoding.
* C31-C33, C40, C41: parser model; frame lemmas; well-formedness of results;
  crash witnesses by computation.  `SpecText.v` describes lines, sections,
  entries and calls inductively, `SpecBind.v` what an expression names; the
  parser is shown to accept exactly these and to end for every text
  (`ParseFrame.v`, `ParseTotal.v`).
* C34-C38: codec style round trips against `SpecNotation.v` (letters, key names,
  RFC 3629 UTF-8, US keyboard rows).
* C39: id matching against a declarative rule.
* C42, C46: invariant of the main loop relating its variables to the recorded
  reads and handler calls (`runs`, any list of rounds).
* C43, C47, C51, C52: one principle (`handler_rel` in `DaemonProofs.v`) reduces a
  relation between states before and after the handler to the primitive changes;
  the invariants hold in every state in which the handler is called (`seen`).
* C45: the same principle with a relation that carries the log of engine effects
  (`ListenProofs.v`); the counting theorem combines it with C45_messages_count.
* C50: invariant relating the report to the held keys; `SpecGadget.v` has the
  usage table of the HID specification.
* C44: composition of device decoding, engine and virtual device encoding over
  any number of rounds of the main loop, from the start of the daemon with any
  configurations; the keys used are those no layer in effect binds
  (`SpecPass.v`).  C44_default says that without bindings these are all but the
  modifiers.
* C48: `SpecShift.v` defines whole sessions (batches, live binds, what the daemon does
  in between) with their output, delays and end.  Proof: `Retime.v` shows that every
  action commutes with replacing the points in time of the state, `Times.v` that all of
  them stay on the clock, `Shift.v` lifts this to process_event by induction on the
  fuel, including chord attempts and undecided keys.  Class: no overloadi and no
  negative global time-out; each condition has a `_refuted` witness (idle clock starts
  at 0; a time-out hitting the value 0 means none).  Event times are at least 1.
* C49: relation `types` of `SpecPlain.v` between strokes and trace, for any state at
  rest with any layers active; invariant over the whole batch, timers included.
  C49_exact is the special case of strokes one by one with distinct output keys.
* C54, C55: `SpecClient.v` says what typing a character sends (US keyboard, blanks,
  compose sequence by position in the table) and how a macro element shows on the virtual
  keyboard; the loop of `input` and the macro branch of `handle_client` are followed by
  induction over the text.
* C56, C57: `SpecCli.v`; induction over the results of the system calls.  C56_delivered
  composes client, transfer and C54.
* C58, C59: `SpecExpr.v` gives the notations as inductive relations (words, groups, escapes,
  calls, arguments by kind, nested meaning).  Soundness by induction on the nesting bound,
  completeness by the same induction with the termination result of C41; the closing
  parenthesis of a call is unique, so a truncated lettermod is never accepted.
* C60: `SpecConfig.v` says what the sections of a file amount to (last option, last alias, layers
  declared in order, last meaningful binding, chords one after another).  Each part is a fold
  over the sections with its own invariant; the meaning of a value is that of C59, which later
  bindings do not change, and what is refused means nothing by completeness.
* C61: `SpecSwap.v`; which of the three cases applies is read off the counts of `SpecKept.v`.  The
  invariant of C40 is extended: between the press and the release of a layer key its entry changes
  only by being handed over to another layer.
* C62: `SpecLed.v`; each elementary step of the engine either announces a layer with the right flag
  or leaves the indicator alone; delivery writes one LED event per announcement; composed over all
  calls of the handler.
* C63: `SpecSource.v` says which keys a configuration mentions and what a history of a keyboard is;
  `SourceProofs.v` carries, for any set of keys closed under what is mentioned and reported, the invariant
  that every part of the state (bindings, held keys, pending keys, chord queue, macros, trace) only holds keys
  of the set, through every function of the engine; `SourceParse.v` carries the same for the parser and
  the keys with names.
* C64: `Uinput.v` models what the virtual devices declare; the invariant of C63 is carried through every
  event of the daemon, its clients and the loop (`CapsProofs.v`) for the set of keys with names; which codes
  have names, and which of them are declared where, is decided by computation over the 256 codes.
* C65: `Identify.v` models `device_init` on a node given by its answers to the ioctls; `SpecIdentify.v` says
  what a keyboard is, writes numbers as digits and folds the traits of a node into a number of its own;
  different traits give different ids because 33 is odd, hence invertible modulo 2^32.  C65_loop_free
  uses the invariant of C66.
* C66: `BoundProofs.v` proves, through every handler, the loop and the start, that each device in the table is
  in the state `manage_device` left it in for the configurations now loaded; C39_select then says which
  file that is.  C66_exact assumes grabs succeed, C66_bound allows failures (the parameter G of `lives`).
* C67: `SpecSafe.v` lists the faults and the aborts per event; `SafeProofs.v` proves them complete for every state
  with the invariants of C04 and C51 plus bounds on the counters of scroll mode (well formed configurations have
  sensitivities of 16 bits), and proves that each fault makes the handler undefined.  C67_steady follows through the
  loop: without reloads the generation of keyboards stays 1, so no pointer dangles.  `MildProofs.v`: a live bind is
  never undefined.
* C68: `HaltProofs.v` composes C03 through the handler, the clients, the loop and the start: each comes to an end
  with one result from some depth of recursion on.  C68_depth: the states reached do not depend on the depth, so the
  parameter `fuel` of the other daemon theorems is no restriction.  C68_goes_on combines it with C67_steady.
* C69: `SpecRef.v` is a second, simple description of the engine (no counters, clock, slots, queues or timer list).
  `RefProofs.v` relates the two states (`rest_of`: counters are numbers of reasons, activation times are positions in
  the order), `RefSteps.v` does it for every action, `RefRun.v` for lookups, remembered keys, events, runs and batches.
  Class: no chords, no keys decided later, and no toggle if there is swap (a layer toggled on and then swapped to
  leaves an activation behind or makes a later release abort, see C61, which takes counters to say).  For swap alone
  the machine knows where the held keys sit: the first of several holders hands over.  The tap of an overload is any
  action of the class, another overload included (`tap_as`), but not a key decided later nor an idle overload.  Oneshot layers outstanding stay below 200
  (`C05_255_refuted` shows that one-byte counters need a bound); without oneshot keys there is none.
* C74: `SpecWait.v` puts one waiting key, its queue and the events still to be struck again around the machine of
  `SpecRef.v` (`feed`, `act`); between two of them the engine may be woken by a timer (`Pass`), which is why the turns
  are an existential: for every run there are turns with the same events given that leave nothing to be struck.
  `WaitProofs.v` relates the pending key (`okw`) and follows the recursion of `kbd_process_events`.  Class: everything
  but chords, toggle only without swap.  A key decided later sits where it sat while it waited.
* C75: `SpecSystem.v` is one machine of `SpecRef.v` per configuration and a rule saying which of them each call of the
  handler is addressed to; what the machines say, without layer changes and wheel keys, is what is written. The calls of
  the handler are those recorded by the loop model, with the device table at that moment. `SystemProofs.v` has an
  invariant (each keyboard has been given the events addressed to it, in the sense of C69; the output is the system's;
  the active pointer is the device used last) and the chain of the calls of a run; through C69. The second theorem takes
  any accepted reload in any run as the beginning. Excluded are requests that write themselves (input, macro) or change
  bindings (bind); see C54, C55, C72.
* C76: `SpecWhole.v` is the system of C75 with the machines of C74; since a machine may let time pass between events
  struck again, the system is a relation. `SystemProofs.v` carries any invariant preserved by the calls of the engine
  through handler, device layer and loop (section `Carry`); `WholeProofs.v` instantiates it through C74.
* C77: `SpecFull.v` puts attempts at chords, places for chords held and a list of what is still to be done around the
  machine of `SpecWait.v`.  A chord is chosen by a search (`best`: newest layer, last chord of it), not by the loop with a
  running maximum over all layers and chords; `FullProofs.v` proves the two equal (`check_spec`), relates attempts and
  places (`tried`, `placed`) and follows the recursion through `resolve_chord`.  Everything proved for C69 and C74 about
  single events is reused: the relation is parametric in what is known of chords (`fringe`), the machine in how the
  action of a code is found (`step_by`).  Class: everything, toggle only without swap.  No hypothesis on the codes of events.
* C78: `SpecEntire.v` is the system of C76 with the machines of C77; `EntireProofs.v` instantiates `Carry` through C77.
* C79: `unmixed` in `SpecFull.v` says in three lines which files C77 and C78 are about; `PropClass.v` proves it equivalent
  to the class `entire` for every accepted file, from C32 (references exist, never main or a layout for a layer action,
  nested actions refer to earlier ones only, chords are of keys).  The three exclusions are where keyd itself goes wrong:
  C61 and `C26_swap_refuted` (toggle with swap), `C25_overload_later_refuted`, `C25_overload_overloadi_refuted` and `C25_overloadi_refuted`.
* C80: `SpecLive.v` lets the machine of C77 change its configuration between turns (`course`) and says what calls, bindings
  and resets are (`session`); `LiveProofs.v` shows that the relation `V` of C77 survives the exchange of the configuration
  (`rebound`: layers and their kinds are as before, tables only grow, so what is held means the same) and carries it
  through every session.  `C80_reset_refuted` shows why `fits` is asked of bindings after a reset.
* C81: `SpecLiving.v` gives the system of C78 everything that can reach the daemon (`order`: a key event for a keyboard, something
  to type, an expression to bind, files to load) as one inductive relation `lives`; start-up is itself an order to load.
  `orders` reads the orders off the calls of the handler in a run, `considerate` says what is asked of clients, `runs_from` is
  `runs` with the files found at the start named (`C81_runs`: nothing is lost).  The proof (`LivingProofs.v`) keeps, for every
  keyboard, `V` of C77 for the configuration in force together with what C80 needs for the next binding (`paired`); the key events
  between two requests go through the `Carry` section of `SystemProofs.v` with the orders so far as a fixed prefix.  C81 contains
  the daemon theorems of C78 and C79 as the case without requests.
* C82: `SpecAnswer.v`; an answer is success or a failure with a text shorter than `errstr`; `hears` lets the daemon write and the
  client read it in any pieces.  Induction over the results of the system calls; C82_listener puts C45 (`later_told`) and the loop
  of `layer_listen` together.  Which text errstr holds is not modelled (any text of its size).
* C83: `SpecAway.v`: `life` is a keyboard from its making on, with calls, bindings and `outside` steps in any order; `alone` runs
  the same acts with nothing else.  `AwayProofs.v`: a simulation relation (`like`) in which the stamps of the layers have the same
  order and the same relation to 1, and the clocks stand above all stamps; it goes through every function of the engine.
* C84: `SpecServed.v`: `in_use p` looks at the calls of the handler only: the last one that ran an engine went to p, since then no
  device of another keyboard spoke and nothing was reloaded; `latest` is the time of that call. Deadlines of a keyboard are those of
  C24, the deadline of the loop that of C46. `ServedProofs.v`: every keyboard has a timeline of C24 that does not run ahead of the
  present (`aged`), and the timers of the keyboard in use are not before the deadline of the loop (`Inv`), for every call, every
  part of a round and every round; calls that run no engine leave timers and timelines of all keyboards alone (`mildly`).
* C85: `Mapper.v` models the script, `SpecMapper.v` has the grammar of app.conf (`lines_of`, `within`, `means`, `sections`), the
  relation of wildcards (`fits`), the words of a name (`spelt`, `joined`) and the bindings in force (`handled`, `in_force`).
  `MapperProofs.v`: each function computes its relation, in both directions; for the daemon a relation between the
  configurations before and after each call of the handler, with any other events between the requests.
* C86: `SpecCompose.v` has a reader of compose files (`read_rule`, `rules`), composing (`compose`: complete, begun, or dropped), and an
  application behind a US keyboard (`application`, `shows`). `ComposeProofs.v`: the file reads as one rule per code (`file_rules`), the
  digits are injective below 46656 (`seq_of_inj`), so the four keys show the character (`shows_composed`); the array and the runs of
  `UnicodeTable.v` give the same lookup (`lookup_runs`). `PropCompose.v` puts C54 and the parsing of words (as C38, for all characters)
  on top: `C86_generated` (any Unicode data), `C86_input`, `C86_macro`. Assumed: no other compose rule of the user starts with Cancel,
  and shift is up and nothing pending when typing starts.
* C87: `ticks n` counts the calls of `left_alone` (`SpecRest.v`); `settled` is nothing undecided and no macro repeating. By C24's
  `told_timeline` the call that was asked for comes at the earliest timer, which `calculate_main_loop_timeout` then drops, so the timers
  shrink (`C87_bounded`, `C87_rests`; without the abort `C87_comes` and, with the accounts of C26, `C87_accounted`). `C87_repeats` is the invariant of a repeating macro, with C28 and C27 giving what is sent.
* C88: `modest` (`SpecStart.v`) excludes macro2() and overloadi() with macros as actions of overload(). Invariant `started` over all steps of the engine: no macro
  repeating, or an entry in the table of held keys; `pd_amacro` shows that releases start no macro. `C88_rests` adds C87, `C88_released` C25.
* C70: `SpecLog.v` says by a relation what a format with marks and conversions prints (`says`) and what each event of
  the monitor prints (`prints`, `session`); `LogProofs.v` follows `colorize` and the printing of its result.
* C71: `SpecMon.v` describes the records of the kernel and their bytes; `PropMon.v` follows the two positions in the
  static buffer through any grouping of records into reads.
* C72: `SpecServe.v` says which events are requests that have to be answered; `ServeProofs.v` shows for every effect of
  the handler that it sends no answer and follows the answers through the loop.  bind through C31 and C66.
* C73: `Ipc.v` is a transition system of processes; descriptors are inherited, the lock counts while a descriptor
  of it is open.  `IpcProofs.v`: the invariant over all interleavings.
* C53: `SpecFile.v` says what each line contributes (`piece`); `FileProofs.v` follows
  fgets and the line array with its stale contents.  C53_only compares two file systems.

## Refuted claims and other findings

Each is a theorem with a concrete witness checked by computation.

* `C02_macro_sends_noop_refuted`: a multi-step macro naming noop sends it.
* `C04_rebind_during_chord_refuted`: a live rebind while a matched chord is
  held back leads to an out-of-bounds read of the chord queue.
* `C05_abort_*`: a history for each of the five assertions that can abort the
  daemon.
  `C05_limits`: the limits are exact (32 queued events, 32 events of a chord
  attempt, 64 timers, 3 chords are still accepted).
* `C05_255_refuted`: 255 oneshot taps, then a layer key: its count wraps to 0
  and the release fails the assertion.
* `C25_toggle_refuted`: layer toggled on, oneshot control tapped, layer toggled off: control
  stays pressed.  `C25_clearm_refuted`, `C25_overload_macro_refuted`,
  `C25_overload_later_refuted`, `C25_overloadi_refuted`, `C25_overload_overloadi_refuted`:
  one configuration each that leaves control pressed.
* `C25_chord_refuted`: a key pressed behind an undecided key and released while a chord is
  struck: the release overtakes the press and the key stays pressed.
* `C26_swap_refuted`, `C26_overload_overloadi_refuted`: activations left behind
  that no toggle, oneshot or held key accounts for.
* `C06_first_activation_refuted`: the very first activation of a layer has the
  time stamp also given to layouts, and loses against the layout.
* `C27_pause_in_group_refuted`: `a+100ms+b` releases key 100, never pressed.
* `C27_first_char_refuted`: U+0080 (index 0 of the compose table) is not typed.
* `C34_empty_name_refuted`: `C-` reads as control plus the left control key.
* `C07_swap_refuted`: swap rewrites what the held layer key releases.
* `C31_chord_subset_refuted`: `a+b = x` changes the action of the chord `a+b+c`.
* `C31_empty_key_refuted`: ` = x` binds every key without alias.
* `C33_refuted`: nine texts for which the parser aborts or goes out of bounds.
* `C39_late_exclusion_refuted`: an exclusion after a matching id has no effect.
* `C40_bracket_refuted`: `[ = ]` is read as a section header.
* `C41_six_refuted`: a call with six arguments aborts.
* `C14_unnoticed_refuted`: with 16 keys held, the next press goes unnoticed and the
  overload key still taps.
* `C19_chords_refuted`: with a chord attempt under way at the decision, keys come out in
  another order than pressed.
* `C20_twice_refuted`: presses are counted, not keys: j struck on two keyboards fires j+k.
* `C20_reuse_refuted`: with a hold time-out, a chord struck while the one before is being
  released can be swallowed: it gets the old one's slot before the slot's code is released.
* `C21_zero_refuted`: with `chord_timeout = 0` a key that begins a chord waits for the next
  event for ever.
* `C24_late_refuted`: a key held back by an undecided key can be due before it is handed
  on; no timer is left and it stays undecided until the next event.
* `C24_oneshot_refuted`: a oneshot layer due while a key is undecided outlives its time.
* `C24_chord_refuted`: a key due at the moment a chord attempt ends stays undecided.
* `C42_led_refuted`: the caps lock LED event counts as escape.
* `C42_two_keyboards_refuted`: the sequence held on one keyboard is not seen after a
  tap of one of its keys on another.
* `C43_horizontal_refuted`: horizontal motion scrolls vertically.
* `C43_leftover_refuted`: the rest of one scroll action is used by the next.
* `C44_internal_refuted`: unbound codes below 256 that keyd uses for itself
  (KEY_PROG1 to 4, KEY_SCROLLUP, KEY_SCROLLDOWN and others) come out changed.
* `C45_twice_refuted`: a layer active twice at the connection is announced once.
* `C45_early_refuted`: before the first event a listener is told no layout.
* `C45_long_name_refuted`: a name of 64 characters loses its newline.
* `C46_delay_refuted`: if handling is delayed a requested callback is lost.
* `C50_seventh_refuted`: the seventh key is lost for good.
* `C51_dangling_refuted`: after a reload the active keyboard is freed memory, and the
  next timer uses it.
* `C53_glued_refuted`: an included file without final newline glues its last line to the
  next one.
* `C53_no_newline_refuted`: without a final newline the terminating NUL of the last line
  is overwritten and the copy runs on into stale or unwritten memory.
* `C53_nul_refuted`: a line that starts with a NUL byte reads before the array.
* `C53_limit`: a text of exactly 65536 bytes is written past the end of the buffer.
* `C45_messages_example`: `-layer` is announced while the layer stays active.
* `C54_truncated_refuted`: text that ends inside a multibyte character aborts the daemon.
* `C56_hangup_refuted`: a client that disconnects early leaves the daemon in `xread` for
  ever.
* `C56_bind_prefix_refuted`: `keyd bind` with an oversized expression fails after the
  expressions before it were applied.
* `C56_stdin_error_refuted`: a failing read of standard input drops a byte or writes before
  the buffer.
* `C56_empty_refuted`: `keyd ""` runs `keyd input`.
* `C57_blank_refuted`: `keyd list-keys` prints blank lines.
* `C58_group_modifiers_refuted`: `C-a+b` in a macro is `a+b`.
* `C58_skipped_refuted`: characters that cannot be typed are left out of a macro.
* `C59_trailing_refuted`: `layer(shift)junk` and `layer(,shift)` are `layer(shift)`.
* `C59_timeout_refuted`: a timeout of 65536 is 0.
* `C60_dotted_refuted`: a binding in section `[a.b]` is taken as one of key `b.x` in layer `a`; the layer stays empty.
* `C61_abort_refuted`: a toggle key still pressed after its layer was toggled off is taken for the
  key holding the layer; swap hands over the wrong key's activation and the release of the key that
  really holds it aborts the daemon.
* `C64_voice_refuted`: voicecommand is written to the virtual keyboard, which has not declared it.
* `C64_pause_refuted`: the release of a code no device declares (see C27).
* `C64_edge_refuted`: an absolute coordinate 0 of a device is not passed on.
* `C65_unique_refuted`: two keyboards with different names and the same id; `C65_reproducible_refuted`: the id of
  a device with a name of 64 bytes depends on its node (the buffer is not terminated and the path follows).
* `C65_capitals_refuted`: an id in capitals never applies; `C65_descriptor_refuted`: a keyboard that does not
  answer EVIOCGNAME leaves its descriptor open.
* `C66_grabbed_refuted`: a keyboard that another program has grabbed has no configuration.
* `C67_overflow_refuted`: motion of 2147483647 in scroll mode overflows an int; `C67_axes_refuted`: a position from a
  device whose axes have no range divides by zero.
* `C62_reload_refuted`, `C62_plugged_refuted`, `C62_host_refuted`: the layer indicator stays lit after
  a reload, is not set on a keyboard plugged in later, and gives way to a caps lock LED event of the
  host.
* `C70_overrun_refuted`: a format of 1024 bytes makes `colorize` write behind its buffer (no message of the program is so long).
* `C70_nameless_refuted`: the kernel codes 0 and 196 to 199 have no name; `keyd monitor` passes NULL to printf.
* `C70_restored_refuted`: `keyd monitor` leaves the terminal with echo and line mode on, whatever they were before.
* `C71_overflow_refuted`: the record of an overflowing inotify queue has no name; at the end of a read its name is taken
  from old bytes of the buffer and a device is announced again.
* `C71_twice_refuted`: a node made between `devmon_create` and `device_scan` is opened twice.
* `C72_some_refuted`: a bind request is answered with success although one of the keyboards refused the expression.
* `C73_inherited_refuted`: the lock file and the socket are opened without CLOEXEC; a command still running after the
  daemon has ended keeps both, the next keyd refuses to start, and clients connect and wait for ever.
* `C73_twin_refuted`: a child whose `execl` fails returns from `execute_command` and goes on as a second daemon.
* `C73_window_refuted`: between `bind` and `chmod` the socket has the permissions the umask leaves.
* `C80_reset_refuted`: the parts of nested actions are kept by number; after `reset` a key still held whose overload was bound by
  a client has as its tap what the next client binds (or nothing).
* `C82_silence_refuted`: a client whose daemon ends before answering reads for ever (xread does not notice the end of the stream).
* `C82_hangup_refuted`: a client that hangs up before its answer is written ends the daemon: SIGPIPE is ignored, the write fails,
  and `xwrite` calls `exit`.  (`Daemon.v` has answers always written.)
* `C83_first_tick_refuted`: the first activation after the start loses against a layout unless another keyboard was first.
* `C84_other_key_refuted`, `C84_mouse_refuted`: a key on another keyboard, or the motion of a mouse with its own configuration,
  and the key that waits on the first keyboard is not decided when it is due; the loop then waits without a limit.
* `C85_bracket_refuted`: the line `[ = ]` of app.conf, a valid expression, is taken for a section. `C85_class_refuted`: [Firefox]
  does not suit a window of class Firefox. `C85_start_refuted`: app.conf written while the script starts is not read again.
  `C85_signal_refuted`: SIGUSR1 after an unreadable line of the Gnome extension brings back the bindings of an earlier window.
* `C86_size_refuted`: a table of 46657 codes has two characters with the same keys (Unicode 14 gives 34493).
* `C87_macro_refuted`: `overload(nav, macro2(300, 50, macro(x y)))`, tapped, repeats with no key held (keyboard.c:636-646 presses and
  releases the action on release; only OP_MACRO is treated separately).
* `C88_idle_refuted`: `overload(nav, overloadi(z, macro(x y), 100))`, tapped, leaves the macro repeating with no key held.
* `C82_unloaded_refuted`: while no configuration is loaded every `keyd bind` fails, with whatever text the last error left.
