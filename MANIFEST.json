{
 "claims": [
  {
   "property": "C01",
   "status": "proved",
   "theorems": [
    "C01_key_events_alternate"
   ],
   "note": "Keys named by multi-step macros are excluded by hypothesis, as in the statement."
  },
  {
   "property": "C02",
   "status": "proved",
   "theorems": [
    "C02_noop_never_sent",
    "C02_macro_sends_noop_refuted"
   ],
   "note": "The refuted theorem shows the stated exception (multi-step macros) is needed."
  },
  {
   "property": "C03",
   "status": "proved",
   "theorems": [
    "C03_any_state",
    "C03_terminates"
   ],
   "note": ""
  },
  {
   "property": "C04",
   "status": "proved",
   "theorems": [
    "C04_no_out_of_bounds",
    "C04_rebind_during_chord_refuted"
   ],
   "note": "For all histories of events, ticks and live binds, except binds arriving while a chord attempt is under way, for which the refuted theorem gives a witness."
  },
  {
   "property": "C05",
   "status": "proved",
   "theorems": [
    "C05_only_limits",
    "C05_no_abort",
    "C05_no_abort_event",
    "C05_255_refuted",
    "C05_abort_pending_queue",
    "C05_abort_timers",
    "C05_abort_chords",
    "C05_abort_inactive",
    "C05_abort_chord_queue",
    "C05_limits"
   ],
   "note": "All aborts are one of the five limits; a witness for each; none for the restricted configurations."
  },
  {
   "property": "C06",
   "status": "proved",
   "theorems": [
    "C06_layer_precedence",
    "C06_lookup",
    "C06_recency",
    "C06_first_activation_refuted"
   ],
   "note": "For a clock starting at 1 the first activation ties with a layout (refuted theorem)."
  },
  {
   "property": "C07",
   "status": "proved",
   "theorems": [
    "C07_release_uses_binding_of_press",
    "C07_same_key_released",
    "C07_same_layer_released",
    "C07_swap_refuted"
   ],
   "note": "Any sequence of events about other keys, ticks and live binds may lie between press and release. Without swap, as swap deliberately rewrites the remembered layer (refuted theorem)."
  },
  {
   "property": "C08",
   "status": "proved",
   "theorems": [
    "C08_modifiers_at_press"
   ],
   "note": "For an event handled while no key or chord decision is pending; keys named by multi-step macros excluded."
  },
  {
   "property": "C09",
   "status": "proved",
   "theorems": [
    "C09_guard",
    "C09_layer_release"
   ],
   "note": ""
  },
  {
   "property": "C10",
   "status": "proved",
   "theorems": [
    "C10_one_layout",
    "C10_setlayout"
   ],
   "note": ""
  },
  {
   "property": "C11",
   "status": "proved",
   "theorems": [
    "C11_clear",
    "C11_host"
   ],
   "note": "clear and clearm from any reachable state."
  },
  {
   "property": "C12",
   "status": "proved",
   "theorems": [
    "C12_press",
    "C12_release",
    "C12_next_key_ends",
    "C12_next_key_counts",
    "C12_others_keep",
    "C12_releases_keep",
    "C12_timeout_tick",
    "C12_timeout_event",
    "C12_no_early_end"
   ],
   "note": "For events handled while no key or chord decision is pending."
  },
  {
   "property": "C13",
   "status": "proved",
   "theorems": [
    "C13_toggle",
    "C13_involution",
    "C13_toggled_active",
    "C13_release_keeps"
   ],
   "note": "C13_toggled_active for configurations whose activations are accounted for (C26); C13_release_keeps excludes releases of overload keys, whose tap action may be a toggle."
  },
  {
   "property": "C14",
   "status": "proved",
   "theorems": [
    "C14_press",
    "C14_alone",
    "C14_other",
    "C14_noticed",
    "C14_unnoticed_refuted"
   ],
   "note": "no swap in the configuration (which replaces the binding of the held key, C07_swap_refuted); a press the engine ignores (16 keys held) does not count: C14_unnoticed_refuted"
  },
  {
   "property": "C15",
   "status": "proved",
   "theorems": [
    "C15_waits",
    "C15_tap",
    "C15_hold",
    "C15_silent"
   ],
   "note": "events in between do not take part in chord attempts; see C19_chordless"
  },
  {
   "property": "C16",
   "status": "proved",
   "theorems": [
    "C16_other_tapped",
    "C16_tap",
    "C16_hold"
   ],
   "note": "as C15"
  },
  {
   "property": "C17",
   "status": "proved",
   "theorems": [
    "C17_first",
    "C17_second",
    "C17_nothing_struck"
   ],
   "note": "as C15"
  },
  {
   "property": "C18",
   "status": "proved",
   "theorems": [
    "C18_choice",
    "C18_key",
    "C18_release",
    "C18_clock"
   ],
   "note": "For a press handled while no key or chord decision is pending."
  },
  {
   "property": "C19",
   "status": "proved",
   "theorems": [
    "C19_undecided",
    "C19_decided",
    "C19_expired",
    "C19_next",
    "C19_chordless",
    "C19_chords_refuted"
   ],
   "note": "the reordering by chords is the refuted part named in the statement"
  },
  {
   "property": "C20",
   "status": "proved",
   "theorems": [
    "C20_strike",
    "C20_pressed",
    "C20_rule",
    "C20_longer",
    "C20_held",
    "C20_part",
    "C20_release",
    "C20_twice_refuted",
    "C20_reuse_refuted"
   ],
   "note": "from a state with nothing undecided, chord_timeout above 0, a slot and a cache entry free; release: exceptions as in C07"
  },
  {
   "property": "C21",
   "status": "proved",
   "theorems": [
    "C21_timeout",
    "C21_foreign",
    "C21_release",
    "C21_hold",
    "C21_zero_refuted"
   ],
   "note": "premises as C20; chord_timeout = 0 is refuted"
  },
  {
   "property": "C22",
   "status": "proved",
   "theorems": [
    "C22_no_effect"
   ],
   "note": ""
  },
  {
   "property": "C23",
   "status": "proved",
   "theorems": [
    "C23_returned_delay",
    "C23_timers_kept"
   ],
   "note": ""
  },
  {
   "property": "C24",
   "status": "proved",
   "theorems": [
    "C24_timer",
    "C24_hold",
    "C24_delay",
    "C24_key",
    "C24_key_decided",
    "C24_oneshot",
    "C24_macro",
    "C24_late_refuted",
    "C24_oneshot_refuted",
    "C24_chord_refuted"
   ],
   "note": "the moment itself: C24_key_decided, C12_timeout_tick, C28_repeats; what can be late: the three refutations"
  },
  {
   "property": "C25",
   "status": "proved",
   "theorems": [
    "C25_no_stuck",
    "C25_none_held",
    "C25_released",
    "C25_follows",
    "C25_macros",
    "C25_toggle_refuted",
    "C25_clearm_refuted",
    "C25_overload_macro_refuted",
    "C25_overload_later_refuted",
    "C25_overloadi_refuted",
    "C25_overload_overloadi_refuted",
    "C25_chord_refuted"
   ],
   "note": "class of configurations as in the statement (neat, and firm for the physical-release version); the exceptions have witnesses"
  },
  {
   "property": "C26",
   "status": "proved",
   "theorems": [
    "C26_count",
    "C26_inactive",
    "C26_active",
    "C26_swap_refuted",
    "C26_overload_overloadi_refuted"
   ],
   "note": "Excluded actions as in the statement; two of the exclusions are shown necessary."
  },
  {
   "property": "C27",
   "status": "proved",
   "theorems": [
    "C27_parsed",
    "C27_execute",
    "C27_timeout",
    "C27_released",
    "C27_engine",
    "C25_macros",
    "C27_pause_in_group_refuted",
    "C27_first_char_refuted"
   ],
   "note": "The sequence itself for macros without pauses inside groups, as in the statement; with a pause the refuted theorem applies. The character with index 0 of the compose table is never typed. C25_macros: every macro of a reachable configuration releases what it presses, pauses in groups included."
  },
  {
   "property": "C28",
   "status": "proved",
   "theorems": [
    "C28_press",
    "C28_not_early",
    "C28_repeats",
    "C28_stops"
   ],
   "note": ""
  },
  {
   "property": "C29",
   "status": "proved",
   "theorems": [
    "C29_press",
    "C29_press_other",
    "C29_others",
    "C29_none"
   ],
   "note": "For events handled while no key or chord decision is pending; C29_none for all histories."
  },
  {
   "property": "C30",
   "status": "proved",
   "theorems": [
    "C30_batch",
    "C30_split",
    "C30_reachable"
   ],
   "note": ""
  },
  {
   "property": "C31",
   "status": "proved",
   "theorems": [
    "C31_readable",
    "C31_key",
    "C31_chord",
    "C31_fail",
    "C31_reset",
    "C31_chord_subset_refuted",
    "C31_empty_key_refuted"
   ],
   "note": "A chord expression changes the first chord that contains all its keys (refuted theorem), an empty key name all keys without alias (refuted theorem)."
  },
  {
   "property": "C32",
   "status": "proved",
   "theorems": [
    "C32_parser_wf",
    "C32_live_wf"
   ],
   "note": ""
  },
  {
   "property": "C33",
   "status": "proved",
   "theorems": [
    "C33_terminates",
    "C33_safe",
    "C33_refuted"
   ],
   "note": "As stated the claim is false: C33_refuted gives nine texts that abort or go out of bounds. Parsing always ends, and gives a configuration for every text without the listed dangers."
  },
  {
   "property": "C34",
   "status": "proved",
   "theorems": [
    "C34_name",
    "C34_alt_name",
    "C34_shifted_name",
    "C34_only",
    "C34_empty_name_refuted"
   ],
   "note": "The empty alternative names of four modifier keys are the exception (refuted theorem)."
  },
  {
   "property": "C35",
   "status": "proved",
   "theorems": [
    "C35_round_trip",
    "C35_language",
    "C35_order"
   ],
   "note": "A trailing dash is accepted as well."
  },
  {
   "property": "C36",
   "status": "proved",
   "theorems": [
    "C36_decode",
    "C36_end",
    "C36_strlen"
   ],
   "note": ""
  },
  {
   "property": "C37",
   "status": "proved",
   "theorems": [
    "C37_unambiguous",
    "C37_shape"
   ],
   "note": ""
  },
  {
   "property": "C38",
   "status": "proved",
   "theorems": [
    "C38_types_text",
    "C38_key_unique"
   ],
   "note": "Words that read as a key, a pause or a group are not literal text; blanks separate words and are not typed."
  },
  {
   "property": "C39",
   "status": "proved",
   "theorems": [
    "C39_select",
    "C39_rules",
    "C39_explicit_first",
    "C39_late_exclusion_refuted"
   ],
   "note": ""
  },
  {
   "property": "C40",
   "status": "proved",
   "theorems": [
    "C40_lines",
    "C40_layout",
    "C40_parse",
    "C40_only",
    "C40_written",
    "C40_bracket_refuted"
   ],
   "note": "Within the limits of 32 sections, 1024 entries per section and names below 256 bytes."
  },
  {
   "property": "C41",
   "status": "proved",
   "theorems": [
    "C41_split",
    "C41_only",
    "C41_total",
    "C41_six_refuted"
   ],
   "note": ""
  },
  {
   "property": "C42",
   "status": "proved",
   "theorems": [
    "C42_panic",
    "C42_stopped",
    "C42_led_refuted",
    "C42_two_keyboards_refuted"
   ],
   "note": "For reads of key events with value 0 or 1 (or repeats) of which none is a LED event (refuted theorem)."
  },
  {
   "property": "C43",
   "status": "proved",
   "theorems": [
    "C43_mode",
    "C43_conserved",
    "C43_plain",
    "C43_horizontal_refuted",
    "C43_leftover_refuted"
   ],
   "note": ""
  },
  {
   "property": "C44",
   "status": "proved",
   "theorems": [
    "C44_passthrough",
    "C44_strokes",
    "C44_default",
    "C44_internal_refuted"
   ],
   "note": "codes keyd uses internally are refuted"
  },
  {
   "property": "C45",
   "status": "proved",
   "theorems": [
    "C45_greeting",
    "C45_stream",
    "C45_stream_one",
    "C45_count",
    "C45_messages_count",
    "C45_twice_refuted",
    "C45_early_refuted",
    "C45_long_name_refuted"
   ],
   "note": "Layer names below 64 characters; the count for one keyboard and a layer active at most once at the connection. The exceptions are refuted theorems."
  },
  {
   "property": "C46",
   "status": "proved",
   "theorems": [
    "C46_timer",
    "C46_pending",
    "C46_delay_refuted"
   ],
   "note": "Under prompt handling; otherwise the refuted theorem applies."
  },
  {
   "property": "C47",
   "status": "proved",
   "theorems": [
    "C47_reload"
   ],
   "note": ""
  },
  {
   "property": "C48",
   "status": "proved",
   "theorems": [
    "C48_shift",
    "C48_idle_refuted",
    "C48_negative_refuted"
   ],
   "note": "global time-outs not negative, no overloadi (as in the statement); both conditions shown necessary"
  },
  {
   "property": "C49",
   "status": "proved",
   "theorems": [
    "C49_typing",
    "C49_exact"
   ],
   "note": ""
  },
  {
   "property": "C50",
   "status": "proved",
   "theorems": [
    "C50_mods",
    "C50_keys_sound",
    "C50_keys_exact",
    "C50_stays",
    "C50_usages",
    "C50_seventh_refuted"
   ],
   "note": ""
  },
  {
   "property": "C51",
   "status": "proved",
   "theorems": [
    "C51_devices",
    "C51_active",
    "C51_dangling_refuted"
   ],
   "note": ""
  },
  {
   "property": "C52",
   "status": "proved",
   "theorems": [
    "C52_keyboards",
    "C52_clock"
   ],
   "note": ""
  },
  {
   "property": "C53",
   "status": "proved",
   "theorems": [
    "C53_text",
    "C53_last_line",
    "C53_only",
    "C53_confined",
    "C53_limit",
    "C53_glued_refuted",
    "C53_no_newline_refuted",
    "C53_nul_refuted"
   ],
   "note": "the file system is a function from paths to contents; lines below 256 bytes, directory path within PATH_MAX; C53_text with 256 bytes to spare, the exact limit without include lines is C53_limit"
  },
  {
   "property": "C54",
   "status": "proved",
   "theorems": [
    "C54_types",
    "C54_stops",
    "C54_released",
    "C54_unique",
    "C54_truncated_refuted"
   ],
   "note": ""
  },
  {
   "property": "C55",
   "status": "proved",
   "theorems": [
    "C55_refused",
    "C55_says",
    "C55_released"
   ],
   "note": "the exact sequence for macros without pauses inside groups, as for C27"
  },
  {
   "property": "C56",
   "status": "proved",
   "theorems": [
    "C56_write",
    "C56_written",
    "C56_read",
    "C56_bytes",
    "C56_text",
    "C56_stdin",
    "C56_too_long",
    "C56_delivered",
    "C56_bind",
    "C56_bind_status",
    "C56_commands",
    "C56_unknown",
    "C56_hangup_refuted",
    "C56_bind_prefix_refuted",
    "C56_stdin_error_refuted",
    "C56_empty_refuted"
   ],
   "note": "results of the system calls are inputs; connecting is taken to succeed"
  },
  {
   "property": "C57",
   "status": "proved",
   "theorems": [
    "C57_names",
    "C57_usable",
    "C57_complete",
    "C57_once",
    "C57_blank_refuted"
   ],
   "note": ""
  },
  {
   "property": "C58",
   "status": "proved",
   "theorems": [
    "C58_notation",
    "C58_runs",
    "C58_unambiguous",
    "C58_expression",
    "C58_group_modifiers_refuted",
    "C58_skipped_refuted"
   ],
   "note": "the events for macros without pauses inside groups, as for C27"
  },
  {
   "property": "C59",
   "status": "proved",
   "theorems": [
    "C59_sound",
    "C59_stays",
    "C59_complete",
    "C59_refused",
    "C59_trailing_refuted",
    "C59_timeout_refuted"
   ],
   "note": "refused: unless more than five arguments abort the parser (C41)"
  },
  {
   "property": "C60",
   "status": "proved",
   "theorems": [
    "C60_settings",
    "C60_aliases",
    "C60_layers",
    "C60_unique",
    "C60_binding",
    "C60_chords",
    "C60_dotted_refuted"
   ],
   "note": "bindings and chords for orderly files: aliases not empty, layer names without dot or parenthesis, values UTF-8, bindings below 512 bytes, tables not full"
  },
  {
   "property": "C61",
   "status": "proved",
   "theorems": [
    "C61_toggled",
    "C61_oneshot",
    "C61_held",
    "C61_nothing",
    "C61_modifiers",
    "C61_release",
    "C61_own_release",
    "C61_abort_refuted"
   ],
   "note": "the modifiers at the host for macros that type no modifier keys"
  },
  {
   "property": "C62",
   "status": "proved",
   "theorems": [
    "C62_writes",
    "C62_follows",
    "C62_unbound",
    "C62_reload_refuted",
    "C62_plugged_refuted",
    "C62_host_refuted"
   ],
   "note": ""
  },
  {
   "property": "C63",
   "status": "proved",
   "theorems": [
    "C63_pressed",
    "C63_released",
    "C63_file",
    "C63_named"
   ],
   "note": "released: apart from the numbers a group release takes for keys, C27_pause_in_group"
  },
  {
   "property": "C64",
   "status": "proved",
   "theorems": [
    "C64_keys",
    "C64_declared",
    "C64_places",
    "C64_lights",
    "C64_voice_refuted",
    "C64_pause_refuted",
    "C64_edge_refuted"
   ],
   "note": "exceptions of declared: voicecommand, and releases of the five codes without a name"
  },
  {
   "property": "C65",
   "status": "proved",
   "theorems": [
    "C65_kind",
    "C65_taken",
    "C65_closed",
    "C65_id",
    "C65_rule",
    "C65_foreign",
    "C65_config",
    "C65_same",
    "C65_apart",
    "C65_own",
    "C65_loop_free",
    "C65_unique_refuted",
    "C65_reproducible_refuted",
    "C65_capitals_refuted",
    "C65_descriptor_refuted"
   ],
   "note": ""
  },
  {
   "property": "C66",
   "status": "proved",
   "theorems": [
    "C66_files",
    "C66_bound",
    "C66_exact",
    "C66_keyboard",
    "C66_grabbed_refuted"
   ],
   "note": "exact: for runs in which grabs succeed"
  },
  {
   "property": "C67",
   "status": "proved",
   "theorems": [
    "C67_undefined",
    "C67_abort",
    "C67_start",
    "C67_steady",
    "C67_overflow_refuted",
    "C67_axes_refuted"
   ],
   "note": "the bind in the middle of a chord is C04_rebind_during_chord_refuted; an existing fault: C51_dangling_refuted"
  },
  {
   "property": "C68",
   "status": "proved",
   "theorems": [
    "C68_handler",
    "C68_round",
    "C68_life",
    "C68_depth",
    "C68_goes_on"
   ],
   "note": "waiting in poll, sleeping and the system calls themselves are not part of the model"
  },
  {
   "property": "C69",
   "status": "proved",
   "theorems": [
    "C69_run",
    "C69_no_oneshots",
    "C69_batches"
   ],
   "note": "configurations without chords, overloadt, overloadt2 and timeout, and without toggle if there is swap; the tap of an overload is not an idle overload (C74 adds keys decided later); toggle(main) excluded; with layouts besides main the clock starts at 2 or later (C06_first_activation_refuted)"
  },
  {
   "property": "C70",
   "status": "proved",
   "theorems": [
    "C70_message",
    "C70_formats",
    "C70_greeting",
    "C70_colourless",
    "C70_overrun_refuted",
    "C70_monitor",
    "C70_undefined",
    "C70_nameless",
    "C70_nameless_refuted",
    "C70_terminal",
    "C70_restored_refuted",
    "C70_stdout",
    "C70_decimal"
   ],
   "note": "the conversions of printf used in the program (%s %d %zd %zu %x with widths as used) are modelled; printf itself is trusted to behave so"
  },
  {
   "property": "C71",
   "status": "proved",
   "theorems": [
    "C71_noticed",
    "C71_scan",
    "C71_overflow_refuted",
    "C71_twice_refuted"
   ],
   "note": "the worker threads of device_scan run one after the other in the model; they share nothing but their own slot"
  },
  {
   "property": "C72",
   "status": "proved",
   "theorems": [
    "C72_answers",
    "C72_determined",
    "C72_refused",
    "C72_bind",
    "C72_bind_defined",
    "C72_bind_failed",
    "C72_reset",
    "C72_some_refuted"
   ],
   "note": "writing the answer to the socket (xwrite) is C56/C57; here an answer is the event of sending it"
  },
  {
   "property": "C73",
   "status": "proved",
   "theorems": [
    "C73_one",
    "C73_address",
    "C73_undisturbed",
    "C73_lock",
    "C73_second",
    "C73_takes_over",
    "C73_inherited_refuted",
    "C73_twin_refuted",
    "C73_window_refuted"
   ],
   "note": "for systems on which execl succeeds (C73_twin_refuted otherwise) and, for the permissions, chmod does; the two forks of execute_command are one step"
  },
  {
   "property": "C74",
   "status": "proved",
   "theorems": [
    "C74_run",
    "C74_no_oneshots"
   ],
   "note": "configurations without chords; toggle only without swap; the tap of an overload is neither decided later nor an idle overload; with layouts besides main the clock starts at 2 or later; fewer than 200 oneshots outstanding, or none bound"
  },
  {
   "property": "C75",
   "status": "proved",
   "theorems": [
    "C75_written",
    "C75_reloaded",
    "C75_no_oneshots"
   ],
   "note": "configurations as in C69; fewer than 200 oneshots outstanding, or none bound; no bind, input, macro or reload request in the part of the run considered (C54, C55, C72, C47 say what these do)"
  },
  {
   "property": "C76",
   "status": "proved",
   "theorems": [
    "C76_written",
    "C76_reloaded",
    "C76_no_oneshots"
   ],
   "note": "configurations as in C74; fewer than 200 oneshots outstanding, or none bound; no bind, input, macro or reload request in the part of the run considered; when time passes for a machine between two events struck again is left open as in C74"
  },
  {
   "property": "C77",
   "status": "proved",
   "theorems": [
    "C77_run",
    "C77_no_oneshots"
   ],
   "note": "toggle only in configurations without swap; the tap of an overload is neither decided later nor an idle overload; no toggle(main) and no chord with the null code, which no accepted file has (C79); with layouts besides main the clock starts at 2 or later; fewer than 200 oneshots outstanding, or none bound"
  },
  {
   "property": "C78",
   "status": "proved",
   "theorems": [
    "C78_written",
    "C78_reloaded",
    "C78_no_oneshots"
   ],
   "note": "configurations as in C77; fewer than 200 oneshots outstanding, or none bound; no bind, input, macro or reload request in the part of the run considered; when time passes for a machine between two events struck again is left open as in C74"
  },
  {
   "property": "C79",
   "status": "proved",
   "theorems": [
    "C79_class",
    "C79_run",
    "C79_written",
    "C79_reloaded"
   ],
   "note": "fewer than 200 oneshots outstanding (C79_run) or ample room (C79_written, C79_reloaded); with layouts besides main the clock starts at 2 or later; requests as in C78"
  },
  {
   "property": "C80",
   "status": "proved",
   "theorems": [
    "C80_run",
    "C80_no_reset",
    "C80_no_oneshots",
    "C80_reset_refuted"
   ],
   "note": "configurations as in C79 before and after each binding; no binding during an attempt at a chord (C04_rebind_during_chord_refuted); swap bound from the start or never; at a binding after a reset the parts of what is held are still of the class (fits; C80_no_reset: without resets nothing is asked); fewer than 200 oneshots outstanding, or none bound"
  },
  {
   "property": "C81",
   "status": "proved",
   "theorems": [
    "C81_written",
    "C81_runs",
    "C81_no_oneshots",
    "C81_text",
    "C81_text_stops",
    "C81_macro"
   ],
   "note": "configurations as in C79 before and after each binding and reload; no binding during an attempt at a chord; swap bound from the start or never; at a binding the parts of what is held are of the class (fits, as in C80); fewer than 200 oneshots outstanding, or none bound; with layouts besides main the clock stands at 2 or later when files are loaded; what a message types: C81_text, C81_text_stops, C81_macro (without pauses); when time passes for a machine between two events struck again is left open as in C74"
  },
  {
   "property": "C82",
   "status": "proved",
   "theorems": [
    "C82_answer",
    "C82_ends",
    "C82_text",
    "C82_reload",
    "C82_bind",
    "C82_silence_refuted",
    "C82_hangup_refuted",
    "C82_unloaded_refuted",
    "C82_listen",
    "C82_listener"
   ],
   "note": "the text of a failure is any text shorter than errstr (2048 bytes); connecting succeeds; the greeting of C82_listener with the first write to the listener succeeding, and until a reload"
  },
  {
   "property": "C83",
   "status": "proved",
   "theorems": [
    "C83_alone",
    "C83_same",
    "C83_next",
    "C83_first_tick_refuted"
   ],
   "note": "the clock stands at 2 or later when the keyboard is made (C83_first_tick_refuted otherwise); which calls the daemon makes is not part of this: timer events go to the keyboard used last (C84)"
  },
  {
   "property": "C84",
   "status": "proved",
   "theorems": [
    "C84_covered",
    "C84_served",
    "C84_other_key_refuted",
    "C84_mouse_refuted"
   ],
   "note": "handling takes no time (prompt, as in C46; C46_delay_refuted otherwise); deadlines later than the last call of the engine; the hold time of a chord (C24_hold) is not a deadline here"
  },
  {
   "property": "C85",
   "status": "proved",
   "theorems": [
    "C85_file",
    "C85_window",
    "C85_names",
    "C85_never",
    "C85_in_force",
    "C85_forgets",
    "C85_bracket_refuted",
    "C85_class_refuted",
    "C85_start_refuted",
    "C85_signal_refuted"
   ],
   "note": "patterns with brackets, the class \\w and lower case outside ASCII and the encoding of arguments are inputs; the change of the file is seen by its time; that the arguments reach the daemon whole is C56_bind"
  },
  {
   "property": "C86",
   "status": "proved",
   "theorems": [
    "C86_generated",
    "C86_size_refuted",
    "C86_input",
    "C86_macro"
   ],
   "note": "data/keyd.compose of the release was compared with the output of the modelled generator outside Coq; composing and the US layout are specified from Compose(5) and X, with no other compose rules starting with the cancel key; Python's int() is modelled for plain hexadecimal digits"
  },
  {
   "property": "C87",
   "status": "proved",
   "theorems": [
    "C87_bounded",
    "C87_rests",
    "C87_comes",
    "C87_accounted",
    "C87_silent",
    "C87_repeats",
    "C87_macro_refuted"
   ],
   "note": "C87_rests for at most MAX_LAYERS layers, which every parsed configuration has; the calls come when they were asked for (C46, C84)"
  },
  {
   "property": "C88",
   "status": "proved",
   "theorems": [
    "C88_held",
    "C88_rests",
    "C88_released",
    "C88_idle_refuted"
   ],
   "note": "held as far as the table of held keys knows; a key whose press found the table full is not in it"
  }
 ]
}