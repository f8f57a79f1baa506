{
 "claims": [
  {
   "property": "C01",
   "status": "proved",
   "theorems": [
    "C01_unsigned_round_trip"
   ],
   "note": "All hosts, widths 1..8 and bool, any offset in any buffer."
  },
  {
   "property": "C02",
   "status": "proved",
   "theorems": [
    "C02_unsigned_wire_format"
   ],
   "note": "Exact digits and frame condition."
  },
  {
   "property": "C03",
   "status": "proved",
   "theorems": [
    "C03_signed_round_trip"
   ],
   "note": "On the hosts of sig_host_ok, shown necessary by C09_characterisation_partial."
  },
  {
   "property": "C04",
   "status": "proved",
   "theorems": [
    "C04_signed_wire_format",
    "C04_code_words"
   ],
   "note": "Same hosts as C03."
  },
  {
   "property": "C05",
   "status": "partial",
   "theorems": [
    "C05_minimum_partial",
    "C05_minimum_refuted",
    "C05_inexpressible"
   ],
   "note": "False of the code: -min overflows for types at least as wide as int on the portable path. C05_minimum_partial characterises exactly when it works; C05_minimum_refuted is the counterexample."
  },
  {
   "property": "C06",
   "status": "partial",
   "theorems": [
    "C06_decode_integers_partial",
    "C06_decode_partial",
    "C06_decode_exact_partial",
    "C06_negative_zero",
    "C06_decode_refuted"
   ],
   "note": "Exact outcome of every read; two faults exist (bool byte > 1 on the native path, code word of the minimum of a wide type on the portable two's complement path)."
  },
  {
   "property": "C07",
   "status": "proved",
   "theorems": [
    "C07_injective",
    "C07_reencode",
    "C07_reencode_negative_zero"
   ],
   "note": "Any type, recursively."
  },
  {
   "property": "C08",
   "status": "proved",
   "theorems": [
    "C08_same_bytes",
    "C08_same_values",
    "C08_exchange"
   ],
   "note": "Any type, any pair of hosts in the class of C09."
  },
  {
   "property": "C09",
   "status": "partial",
   "theorems": [
    "C09_optimisation_partial",
    "C09_characterisation_partial",
    "C09_optimisation_refuted",
    "C09_signed_mode_only_refuted"
   ],
   "note": "False on big endian hosts taking exactly one of the two native shortcuts with a type narrower than unsigned long long; iff characterisation proved."
  },
  {
   "property": "C10",
   "status": "proved",
   "theorems": [
    "C10_arrays_contiguous",
    "C10_integer_arrays",
    "C10_empty_refuted"
   ],
   "note": "Any element type whose sizeof is its encoded size; arrays of integers, nested at will, always qualify. C10_empty_refuted: an empty std::array is read past its end."
  },
  {
   "property": "C11",
   "status": "proved",
   "theorems": [
    "C11_extension_round_trip"
   ],
   "note": "Any extension pair inverse on the fields, fields of any type recursively."
  },
  {
   "property": "C12",
   "status": "partial",
   "theorems": [
    "C12_two_phase_lookup_partial",
    "C12_arrays_partial",
    "C12_gaps_partial",
    "C12_overflow_partial",
    "C12_arrays_refuted"
   ],
   "note": "False of the code. With two-phase name lookup such arrays are rejected by the compiler; otherwise they are contiguous iff sizeof equals the encoded size, have gaps when it is larger, overflow when it is smaller."
  },
  {
   "property": "C25",
   "status": "proved",
   "theorems": [
    "C25_smallest_index_type"
   ],
   "note": "All counts below 2^64."
  },
  {
   "property": "C26",
   "status": "proved",
   "theorems": [
    "C26_unique_index",
    "C26_no_collision",
    "C26_prefixes_differ"
   ],
   "note": "Both implementations of find."
  },
  {
   "property": "C27",
   "status": "proved",
   "theorems": [
    "C27_at",
    "C27_max",
    "C27_sum",
    "C27_find",
    "C27_clip",
    "C27_index_sequence"
   ],
   "note": "For the instantiations which both compile."
  },
  {
   "property": "C13",
   "status": "proved",
   "theorems": [
    "C13_concatenation",
    "C13_encoding_is_concatenation",
    "C13_subscript"
   ],
   "note": ""
  },
  {
   "property": "C14",
   "status": "proved",
   "theorems": [
    "C14_get_constructed"
   ],
   "note": ""
  },
  {
   "property": "C15",
   "status": "proved",
   "theorems": [
    "C15_set_get"
   ],
   "note": "Tuples and views, in any memory."
  },
  {
   "property": "C16",
   "status": "proved",
   "theorems": [
    "C16_set_frame"
   ],
   "note": "The outcome of the other elements is unchanged even when reading them is undefined behaviour."
  },
  {
   "property": "C17",
   "status": "proved",
   "theorems": [
    "C17_last_writer_wins",
    "C17_commute",
    "C17_histories"
   ],
   "note": "Arbitrary sequences of sets."
  },
  {
   "property": "C18",
   "status": "proved",
   "theorems": [
    "C18_default_zero"
   ],
   "note": ""
  },
  {
   "property": "C19",
   "status": "proved",
   "theorems": [
    "C19_invoke"
   ],
   "note": "Arbitrary functor over an arbitrary world."
  },
  {
   "property": "C20",
   "status": "proved",
   "theorems": [
    "C20_sub_view",
    "C20_range_checked"
   ],
   "note": "C20_range_checked is exact: the slices accepted are those within a tuple which has elements; the specialisation tuple<E, S> has no member view, so that make_view<0, 0> of it does not compile."
  },
  {
   "property": "C21",
   "status": "partial",
   "theorems": [
    "C21_conversion_partial",
    "C21_same_tuple_partial",
    "C21_view_rebound_refuted",
    "C21_variable_rejected_refuted",
    "C21_no_elements_refuted",
    "C21_refuted"
   ],
   "note": "Holds for temporaries of another type (any overlap) and for tuples of the same type. False otherwise: a view assigned from a view of the same type is rebound and no value is copied; variables and constants of another type do not compile; a tuple without elements cannot be assigned from anything of another type, even a temporary."
  },
  {
   "property": "C22",
   "status": "partial",
   "theorems": [
    "C22_views_partial",
    "C22_write_characterisation_partial",
    "C22_read_characterisation_partial",
    "C22_refuted"
   ],
   "note": "Holds iff sizeof is the encoded size: the buffer copied through an iterator has sizeof bytes. False for user types encoded over fewer bytes."
  },
  {
   "property": "C23",
   "status": "proved",
   "theorems": [
    "C23_byte_copy",
    "C23_transmission"
   ],
   "note": "Including between two different hosts."
  },
  {
   "property": "C24",
   "status": "proved",
   "theorems": [
    "C24_packet"
   ],
   "note": "Arbitrary byte putter over an arbitrary world."
  },
  {
   "property": "C28",
   "status": "proved",
   "theorems": [
    "C28_consumes",
    "C28_returns"
   ],
   "note": "Arbitrary byte getter over an arbitrary world; void included."
  },
  {
   "property": "C29",
   "status": "proved",
   "theorems": [
    "C29_read_call_write",
    "C29_no_input",
    "C29_empty"
   ],
   "note": "Equality of the whole run with pull, call, push over an arbitrary world, both storage policies."
  },
  {
   "property": "C30",
   "status": "partial",
   "theorems": [
    "C30_policies_partial",
    "C30_sizes_partial",
    "C30_announced",
    "C30_sizes_refuted"
   ],
   "note": "Calls and outputs: proved without hypotheses. Sizes: equal iff sizeof is the encoded size, hence false for user types encoded over another number of bytes."
  },
  {
   "property": "C31",
   "status": "proved",
   "theorems": [
    "C31_remote_call"
   ],
   "note": "Caller and callee may run on different hosts, with different storage policies."
  },
  {
   "property": "C32",
   "status": "proved",
   "theorems": [
    "C32_invalid_index",
    "C32_valid_index"
   ],
   "note": ""
  },
  {
   "property": "C33",
   "status": "proved",
   "theorems": [
    "C33_compiles",
    "C33_replace",
    "C33_histories"
   ],
   "note": "Arbitrary sequences of replacements."
  },
  {
   "property": "C34",
   "status": "proved",
   "theorems": [
    "C34_hook",
    "C34_input_only"
   ],
   "note": ""
  },
  {
   "property": "C53",
   "status": "partial",
   "theorems": [
    "C53_sizes_partial",
    "C53_integers_partial",
    "C53_refuted"
   ],
   "note": "action::input_size is always right; payload_length and no_storage_action::input_size are right iff the sum of sizeof is the sum of the encoded sizes, hence false for user types encoded over another number of bytes."
  },
  {
   "property": "C35",
   "status": "proved",
   "theorems": [
    "C35_refinement"
   ],
   "note": "Equality of the whole observable run (statuses, bytes, world, fault) with the abstract machine, for double and (half-duplex) single buffered dispatchers, both storage policies, replace and move included. Hypothesis well_sized: the buffers hold the packets of the keyring; C36 and C37 characterise when."
  },
  {
   "property": "C36",
   "status": "partial",
   "theorems": [
    "C36_input_buffer_partial",
    "C36_integers",
    "C36_refuted"
   ],
   "note": "Characterised: no overflow iff the encoded arguments of every callback fit the space sized by sizeof. Always true of integers and their arrays; false for user types encoded over more bytes than sizeof."
  },
  {
   "property": "C37",
   "status": "partial",
   "theorems": [
    "C37_output_buffer_partial",
    "C37_refuted"
   ],
   "note": "Characterised: no overflow iff every response fits the buffer, which is sized from the parameters. False for a callback returning more than the largest parameters."
  },
  {
   "property": "C38",
   "status": "proved",
   "theorems": [
    "C38_drain"
   ],
   "note": ""
  },
  {
   "property": "C39",
   "status": "proved",
   "theorems": [
    "C39_resolved",
    "C39_dropped",
    "C39_never_loading"
   ],
   "note": ""
  },
  {
   "property": "C40",
   "status": "proved",
   "theorems": [
    "C40_reset",
    "C40_resynchronised"
   ],
   "note": "C40_reset holds in any state whatsoever."
  },
  {
   "property": "C42",
   "status": "proved",
   "theorems": [
    "C42_half_duplex",
    "C42_full_duplex_refuted"
   ],
   "note": "C42_full_duplex_refuted shows that the half-duplex condition is needed."
  },
  {
   "property": "C48",
   "status": "proved",
   "theorems": [
    "C48_resolved",
    "C48_dropped"
   ],
   "note": ""
  },
  {
   "property": "C41",
   "status": "proved",
   "theorems": [
    "C41_put",
    "C41_read_from",
    "C41_interleaving",
    "C41_reception"
   ],
   "note": "Double buffered dispatchers."
  },
  {
   "property": "C45",
   "status": "proved",
   "theorems": [
    "C45_moves",
    "C45_moved_from_weak",
    "C45_moved_from_index",
    "C45_moved_from_packet"
   ],
   "note": "A moved-to dispatcher behaves as the original. The moved-from one keeps its weak references; with owning actions, using it is a null dereference in input_size."
  },
  {
   "property": "C46",
   "status": "proved",
   "theorems": [
    "C46_framing",
    "C46_callback"
   ],
   "note": ""
  },
  {
   "property": "C43",
   "status": "proved",
   "theorems": [
    "C43_prefix",
    "C43_streams",
    "C43_responses",
    "C43_no_fault",
    "C43_byte_by_byte",
    "C43_server"
   ],
   "note": "Any schedule of put, read_from, get and write_to over wires. The responses: if each is sent before the next packet is completed."
  },
  {
   "property": "C44",
   "status": "proved",
   "theorems": [
    "C44_reply",
    "C44_complete",
    "C44_peer",
    "C44_recovered",
    "C44_nothing_to_reply"
   ],
   "note": "C44_nothing_to_reply: a dispatcher without any response returns true and sends the uninitialised local array."
  },
  {
   "property": "C47",
   "status": "proved",
   "theorems": [
    "C47_dispatcher_in_place",
    "C47_buffered_in_place"
   ],
   "note": "Any two positions in the same memory."
  },
  {
   "property": "C49",
   "status": "partial",
   "theorems": [
    "C49_accepted",
    "C49_converted",
    "C49_conversion",
    "C49_encode_outcome",
    "C49_encode",
    "C49_encode_plain_partial",
    "C49_encode_refuted",
    "C49_encode_rejects",
    "C49_decode_same",
    "C49_decode",
    "C49_decode_truncated",
    "C49_round_trip"
   ],
   "note": "encode returns exactly the request if and only if the parameters are as large in memory as on the wire (always so without user types); C49_encode_refuted shows uninitialised bytes after the request for a padded structure. decode and the round trip are proved in full."
  },
  {
   "property": "C50",
   "status": "proved",
   "theorems": [
    "C50_call",
    "C50_responses",
    "C50_nothing_sent",
    "C50_base_class"
   ],
   "note": "await is a function call. C50_base_class: the base class raises TypeError, never returns."
  },
  {
   "property": "C51",
   "status": "proved",
   "theorems": [
    "C51_dispatcher",
    "C51_replace",
    "C51_calls",
    "C51_framing",
    "C51_foreign_key",
    "C51_foreign_refuted"
   ],
   "note": "For keys of the keyring of the dispatcher, in every reachable state. C51_foreign_key and C51_foreign_refuted: what happens with keys of other keyrings. Python callbacks do not raise."
  },
  {
   "property": "C52",
   "status": "partial",
   "theorems": [
    "C52_bits",
    "C52_float_native_partial",
    "C52_float_accepted",
    "C52_float_integral_partial",
    "C52_float_lost",
    "C52_float_offset_partial",
    "C52_float_zero",
    "C52_float_twos",
    "C52_float_twos_read",
    "C52_long_double",
    "C52_float_undefined",
    "C52_floats_refuted",
    "C01_unsigned_round_trip",
    "C03_signed_round_trip"
   ],
   "note": "False of the code: floating point types are accepted. They round-trip exactly when the signed mode is native and the type has at most eight bytes; otherwise they are truncated, do not compile or are undefined behaviour. For integers, see C01, C03."
  },
  {
   "property": "C54",
   "status": "proved",
   "theorems": [
    "C54_getter_throws",
    "C54_getter_returns",
    "C54_resumes"
   ],
   "note": "Both kinds of dispatchers."
  },
  {
   "property": "C55",
   "status": "proved",
   "theorems": [
    "C55_putter_throws",
    "C55_putter_returns"
   ],
   "note": ""
  },
  {
   "property": "C56",
   "status": "partial",
   "theorems": [
    "C56_returns_partial",
    "C56_stuck",
    "C56_refuted"
   ],
   "note": "False of the code. C56_returns_partial: callbacks which do not throw on the request at hand are served as in C35. C56_stuck: after an exception no request is ever served again, the pending response is lost and the bytes put overflow the input buffer."
  },
  {
   "property": "C57",
   "status": "proved",
   "theorems": [
    "C57_compiles",
    "C57_converted",
    "C57_preserved",
    "C57_set",
    "C57_remote_call"
   ],
   "note": "Conversions between integer types and bool. Other types are only accepted for themselves."
  },
  {
   "property": "C58",
   "status": "proved",
   "theorems": [
    "C58_own_signature",
    "C58_exact"
   ],
   "note": "C58_exact: integer results and parameters."
  },
  {
   "property": "C59",
   "status": "proved",
   "theorems": [
    "C59_raises",
    "C59_returns"
   ],
   "note": "Python dispatchers (double buffered, actions of dynamic storage). The function is replaced, then called by the next request."
  },
  {
   "property": "C60",
   "status": "proved",
   "theorems": [
    "C60_refines",
    "C60_depth",
    "C60_aloof"
   ],
   "note": "put and get from outside; both kinds of dispatchers. C60_aloof: callbacks which leave the dispatcher alone behave as in C35 and C42."
  },
  {
   "property": "C61",
   "status": "partial",
   "theorems": [
    "C61_get_partial",
    "C61_is_loaded_partial",
    "C61_write_to_partial",
    "C61_refuted",
    "C61_lost_refuted",
    "C61_is_loaded_refuted"
   ],
   "note": "False when a byte put meanwhile completes a request: later sends leave the output buffer (C61_refuted) or lose bytes of the new response (C61_lost_refuted). Proved when requests are only begun or dropped meanwhile."
  },
  {
   "property": "C62",
   "status": "partial",
   "theorems": [
    "C62_wire",
    "C62_responses_partial",
    "C62_refuted",
    "C62_cut_refuted"
   ],
   "note": "C62_wire: exactly what is sent, for every interleaving. The full statement is false: zeros are sent after a response, for ever, and in place of the response of a void callback (C62_refuted), and a response which is not sent in time is cut (C62_cut_refuted). Otherwise the responses are received whole and in order, between zeros (C62_responses_partial)."
  },
  {
   "property": "C63",
   "status": "partial",
   "theorems": [
    "C63_transmissions_partial",
    "C63_exact",
    "C63_empty",
    "C63_refuted"
   ],
   "note": "False when a transmission ends in the middle of a request: the next one is misinterpreted (C63_refuted). Proved for transmissions of whole requests, possibly followed by an invalid index and anything, or empty. C63_exact says what the callee does of any sequence of transmissions: it gives the dispatcher the bytes of each of them up to the first which has a packet dropped, whatever was pending; C63_empty: an empty transmission always leaves it awaiting a request."
  },
  {
   "property": "C64",
   "status": "proved",
   "theorems": [
    "C64_program",
    "C64_round_trip",
    "C64_determined",
    "C64_forgotten_refuted"
   ],
   "note": "serialize uses set and get on the elements only, not the iterators of the view. C64_forgotten_refuted: an extension which forgets a field."
  },
  {
   "property": "C65",
   "status": "proved",
   "theorems": [
    "C65_sent",
    "C65_received",
    "C65_exchange",
    "C65_errors"
   ],
   "note": "The checksum function is any function of the bytes with values of the type of its field."
  },
  {
   "property": "C66",
   "status": "proved",
   "theorems": [
    "C66_owned",
    "C66_shared",
    "C66_undefined",
    "C66_no_lvalue",
    "C66_copy_refuted",
    "C66_duration_refuted"
   ],
   "note": "One class of functors at a time, any number of objects and actions. C66_copy_refuted and C66_duration_refuted: what the documentation says of copies and storage durations is false of lvalues."
  },
  {
   "property": "C67",
   "status": "partial",
   "theorems": [
    "C67_put_partial",
    "C67_stream_partial",
    "C67_stale_refuted",
    "C67_outside_refuted",
    "C67_order_refuted"
   ],
   "note": "False when an interrupt takes place between m_obuf_bottom = 0 and m_obuf_next = 0 (C67_stale_refuted: bytes in no response are sent; C67_outside_refuted: the handler reads past the buffer) and when the compiler increments m_obuf_bottom before it stores the byte (C67_order_refuted). Proved for any interrupts at all other moments."
  },
  {
   "property": "C68",
   "status": "proved",
   "theorems": [
    "C68_every_schedule",
    "C68_fair"
   ],
   "note": "Channels are FIFO, reliable and unbounded; the caller reads the response of a call before it makes the next one."
  },
  {
   "property": "C69",
   "status": "proved",
   "theorems": [
    "C69_dispatcher",
    "C69_buffered"
   ],
   "note": "Channels are FIFO, reliable and unbounded. Responses left in a buffered dispatcher are lost when the next packet is completed (C43): here they are written at once."
  },
  {
   "property": "C70",
   "status": "partial",
   "theorems": [
    "C70_signature",
    "C70_standards_partial",
    "C70_standards_refuted"
   ],
   "note": "False for noexcept callbacks: there is no specialisation for noexcept, which is a part of the type in C++17, so a noexcept callback has a signature in C++11 and none in C++17. C70_signature characterises exactly, in both standards, which types have a signature; C70_standards_partial is the agreement without noexcept."
  },
  {
   "property": "C71",
   "status": "proved",
   "theorems": [
    "C71_process",
    "C71_streams",
    "C71_stronger",
    "C71_requirements_refuted"
   ],
   "note": "C71_requirements_refuted: a getter returning int, or a generic lambda as putter, meets the requirement of operator() and the program still does not compile, without the message meant for it."
  },
  {
   "property": "C72",
   "status": "partial",
   "theorems": [
    "C72_action",
    "C72_key",
    "C72_dispatcher_partial",
    "C72_objects_refuted",
    "C72_replace"
   ],
   "note": "False for functors: flist and key take them, but the constructor of the dispatcher looks for the signature of a pointer to the functor, which has none. C72_dispatcher_partial: exactly the functions without reference parameters to non-constant objects. C72_action and C72_replace are exact."
  },
  {
   "property": "C73",
   "status": "proved",
   "theorems": [
    "C73_every_schedule",
    "C73_fair",
    "C73_small_array_refuted"
   ],
   "note": "The array has to hold every response which is asked for (documented); C73_small_array_refuted shows that a response which does not fit is lost for ever. Channels are reliable and each device does one thing at a time."
  },
  {
   "property": "C74",
   "status": "partial",
   "theorems": [
    "C74_function_partial",
    "C74_wrong_name",
    "C74_variable",
    "C74_scoped",
    "C74_template",
    "C74_function_refuted"
   ],
   "note": "Full statement: the name found is that of the callback. Missing: functions whose parameters cite another function get the name of that function (C74_function_refuted, C74_wrong_name); callbacks of namespaces are refused. The format of demangled names is that of GCC, which is not part of the library."
  },
  {
   "property": "C75",
   "status": "partial",
   "theorems": [
    "C75_module_partial",
    "C75_common_key",
    "C75_one_keyring",
    "C75_unnamed",
    "C75_module_refuted",
    "C75_dispatcher_name_refuted"
   ],
   "note": "Full statement: any keyrings with distinct names can be put in a module. Missing: keyrings which have a callback of the same signature at the same index (C75_module_refuted: pybind11 refuses to register a type twice); a dispatcher with the name of a callback of its keyring is replaced by the key (C75_dispatcher_name_refuted)."
  },
  {
   "property": "C76",
   "status": "proved",
   "theorems": [
    "C76_find_spec",
    "C76_history",
    "C76_concurrent_refuted"
   ],
   "note": "C76_concurrent_refuted: the flag is not per thread, so an import in another thread while the hook is busy is not handled."
  },
  {
   "property": "C77",
   "status": "partial",
   "theorems": [
    "C77_environment_partial",
    "C77_ccache",
    "C77_raises",
    "C77_failed",
    "C77_one_compiler_refuted",
    "C77_twice_refuted"
   ],
   "note": "Full statement: the compilers the user chose are used, with ccache once. Missing: a compiler which is given alone is ignored (C77_one_compiler_refuted); in a process started by one which imported the package ccache is put twice (C77_twice_refuted). C77_failed: what a failed import leaves in the environment."
  },
  {
   "property": "C78",
   "status": "proved",
   "theorems": [
    "C78_accepted",
    "C78_set",
    "C78_set_standard",
    "C78_get",
    "C78_invoke",
    "C78_passed",
    "C78_instantiates",
    "C78_refuted"
   ],
   "note": "C78_refuted: the assertion lets arrays of pointers through, int[2][2] can be set but not read, and an extension of an arithmetic type makes the type ambiguous but is ignored in arrays. C78_instantiates: the condition used in C12 is what overload resolution gives."
  },
  {
   "property": "C79",
   "status": "proved",
   "theorems": [
    "C79_actions",
    "C79_callbacks",
    "C79_refuted"
   ],
   "note": "C79_refuted: callbacks which return const T & work with keys and no_storage_action but not with action; parameters of type T && make keys refuse anything but variables, parameters of type T & are accepted by keys only, and references to plain arrays can be returned to no_storage_action only."
  },
  {
   "property": "C80",
   "status": "proved",
   "theorems": [
    "C80_library",
    "C80_key",
    "C80_user",
    "C80_microsoft",
    "C80_refuted",
    "C80_bytes",
    "C80_aligned",
    "C80_empties",
    "C80_packed",
    "C80_microsoft_bytes"
   ],
   "note": "The rules by which the ABIs place bases and members are part of the model. C80_refuted: classes derived from buffered_dispatcher which have a virtual destructor or data in a base before it. Hypothesis of C80_user: no empty class is twice among the bases (C80_conflict shows what happens otherwise)."
  },
  {
   "property": "C81",
   "status": "proved",
   "theorems": [
    "C81_invoke",
    "C81_chain",
    "C81_refuted"
   ],
   "note": "C81_refuted: a link which cannot represent the result breaks the chain (hence the hypothesis). C81_chain is an induction on the number of links whose step is the remote call of C31."
  },
  {
   "property": "C82",
   "status": "proved",
   "theorems": [
    "C82_blocks",
    "C82_no_leak",
    "C82_throws",
    "C82_replaces",
    "C82_constructs",
    "C82_action",
    "C82_moves",
    "C82_peak",
    "C82_weak"
   ],
   "note": "The new and the old callback of a replacement are allocated at the same time: C82_no_room shows a dispatcher none of whose callbacks can be replaced because the memory is exactly full."
  },
  {
   "property": "C83",
   "status": "proved",
   "theorems": [
    "C83_reads",
    "C83_waits",
    "C83_process",
    "C83_key_reads",
    "C83_elements",
    "C83_bool",
    "C83_stored",
    "C83_given",
    "C83_types",
    "C83_again",
    "C83_writes",
    "C83_round_trip",
    "C83_streambuf",
    "C83_stream",
    "C83_white_space",
    "C83_stream_refuted"
   ],
   "note": "The iterators of the standard library are modelled from the text of the standard. C83_stream_refuted: two requests one after the other on a stream read by std::istream_iterator."
  },
  {
   "property": "C84",
   "status": "proved",
   "theorems": [
    "C84_exact",
    "C84_discipline",
    "C84_references",
    "C84_self_replacement",
    "C84_members_refuted",
    "C84_nested_refuted",
    "C84_this_refuted"
   ],
   "note": "Byte getters and putters are lists of bytes; the effects of destructors and results which are references are not modelled. C84_members_refuted, C84_nested_refuted, C84_this_refuted: the three ways to break the condition."
  },
  {
   "property": "C85",
   "status": "proved",
   "theorems": [
    "C85_programs",
    "C85_bindings",
    "C85_names",
    "C85_reference_refuted",
    "C85_outlives_refuted"
   ],
   "note": "Views are those of slices of tuples (iterators are byte_t pointers); copying a view whose tuple is gone is taken to copy two pointers. C85_reference_refuted: the names of auto &[...] do not refer to the elements, unlike with std::tuple. C85_outlives_refuted: a view of a temporary compiles and is undefined when used."
  },
  {
   "property": "C86",
   "status": "proved",
   "theorems": [
    "C86_until_dropped",
    "C86_blind",
    "C86_served",
    "C86_blind_exact",
    "C86_wide",
    "C86_lost_byte"
   ],
   "note": "The dispatcher is double buffered, or no callback returns anything and no response is pending; the callbacks accept every byte (a bool parameter does not: reading it from 255 is undefined). 255 is what Wire.read gives when nothing is available."
  },
  {
   "property": "C87",
   "status": "proved",
   "theorems": [
    "C87_values",
    "C87_requests",
    "C87_responses"
   ],
   "note": "Among values which both sides can encode. In the 'only if' part the callbacks are any callbacks with the given signatures: one which ignores its arguments cannot tell."
  },
  {
   "property": "C88",
   "status": "proved",
   "theorems": [
    "C88_same_packets",
    "C88_served",
    "C88_outgrown",
    "C88_sizes"
   ],
   "note": "Plain dispatchers; by C88_same_packets the requests are those to which the theorems on buffered dispatchers apply."
  },
  {
   "property": "C89",
   "status": "proved",
   "theorems": [
    "C89_same_packets",
    "C89_requests",
    "C89_responses"
   ],
   "note": "Among arguments which both sides can encode with the types of the caller. In the 'only if' part the callbacks are any callbacks with the given signatures."
  },
  {
   "property": "C90",
   "status": "proved",
   "theorems": [
    "C90_types",
    "C90_buffered",
    "C90_dispatcher",
    "C90_refuted"
   ],
   "note": "Callbacks are any whose results can be encoded and which do not themselves fail; callbacks may be replaced by others of the same signature, or removed. With weak references the parameters are supposed to take as many bytes in memory as encoded. C90_refuted shows two bytes which are enough for a bool on a host which declares its byte order."
  },
  {
   "property": "C91",
   "status": "proved",
   "theorems": [
    "C91_full_duplex",
    "C91_lagging",
    "C91_calls",
    "C91_pipelined",
    "C91_early_refuted"
   ],
   "note": "C91_full_duplex is about both kinds of dispatchers and extends C35 and C42. C91_early_refuted: the condition on the positions cannot be weakened by one byte."
  },
  {
   "property": "C92",
   "status": "proved",
   "theorems": [
    "C92_arguments",
    "C92_heard",
    "C92_index",
    "C92_server",
    "C92_uniform",
    "C92_intact",
    "C92_exact"
   ],
   "note": "The bytes are arbitrary: nothing is assumed about who wrote them, but that they can be decoded (C06, C90 tell when bytes cannot)."
  },
  {
   "property": "C93",
   "status": "proved",
   "theorems": [
    "C93_exact",
    "C93_single_callback_refuted"
   ],
   "note": "The equivalence is about all the callbacks of the caller together: for one callback alone other accidents are possible (C93_single_callback_refuted: the second byte of an index completes a smaller argument). A caller without callbacks sends nothing and is excluded."
  },
  {
   "property": "C94",
   "status": "proved",
   "theorems": [
    "C94_linked",
    "C94_exact",
    "C94_alone_refuted"
   ],
   "note": "Such programs break the one-definition rule: the theorem is about what linkers do of them (one of the bodies is kept), not about what C++ says. The minimum of signed types is excluded as in C05."
  },
  {
   "property": "C95",
   "status": "proved",
   "theorems": [
    "C95_race_iff",
    "C95_no_race",
    "C95_pairs",
    "C95_single_buffer",
    "C95_duplex_refuted"
   ],
   "note": "A race is a reachable configuration in which the next accesses of the two threads are to the same place and one is a store; memory is otherwise sequentially consistent. What the callbacks act on is one place. The warning of doc/callee.rst.in 14 lacks its second colon and is not rendered."
  },
  {
   "property": "C96",
   "status": "proved",
   "theorems": [
    "C96_unsigned",
    "C96_signed",
    "C96_compiles",
    "C96_build"
   ],
   "note": "Values of the options are made of letters, digits, _ and -. The most negative integers are left out as in C05. The options are declared with option(), which is for booleans, although ON does not compile."
  },
  {
   "property": "C97",
   "status": "proved",
   "theorems": [
    "C97_read",
    "C97_write",
    "C97_unsigned",
    "C97_signed",
    "C97_loops"
   ],
   "note": "The interpreter covers the statements and operators used by these functions; the most negative integers are in C97_write (their faults included) but not in C97_signed, as in C05."
  },
  {
   "property": "C98",
   "status": "proved",
   "theorems": [
    "C98_counters",
    "C98_tuple",
    "C98_payload",
    "C98_input_buffer",
    "C98_declared",
    "C98_same_buffer",
    "C98_refuted",
    "C98_standard_refuted"
   ],
   "note": "C98_counters covers the operations of run_ops (put, get, is_loaded, read_from, write_to, the call operator, replace, moves); reply and re-entrant use are not repeated with wrapping counters."
  },
  {
   "property": "C99",
   "status": "proved",
   "theorems": [
    "C99_refines",
    "C99_aloof",
    "C99_ends",
    "C99_full_duplex",
    "C99_feed",
    "C99_feed_cut",
    "C99_ends_refuted",
    "C99_status_refuted"
   ],
   "note": "Callbacks act on the world only; a getter or putter which moves the dispatcher away is left out. C99_ends_refuted and C99_status_refuted show that the condition of C99_ends cannot be dropped."
  },
  {
   "property": "C100",
   "status": "proved",
   "theorems": [
    "C100_put",
    "C100_get",
    "C100_read_from",
    "C100_write_to",
    "C100_process",
    "C100_dispatch",
    "C100_history"
   ],
   "note": "get_index, the call of an action and input_size are those of Rpc.v; reply and replace are not transcribed. The number of turns a loop may take is a parameter of the interpreter."
  },
  {
   "property": "C101",
   "status": "proved",
   "theorems": [
    "C101_call",
    "C101_history",
    "C101_bound",
    "C101_request"
   ],
   "note": "Accesses to the members of the dispatcher as written in the source (Threads.v): local variables, among which the tuples of arguments and results, are not counted; neither is what the callback does."
  },
  {
   "property": "C102",
   "status": "proved",
   "theorems": [
    "C102_read",
    "C102_write",
    "C102_get",
    "C102_set",
    "C102_lay",
    "C102_invoke",
    "C102_call",
    "C102_static",
    "C102_key_write",
    "C102_key_read",
    "C102_index"
   ],
   "note": "Integers run the statements of Source.v (C97). One instantiation at a time: sizes and offsets are constants (TypeLevel.v), packs are expanded. The callback is any function of the arguments and the world, which returns a value of its type. What std::next does beyond 32767 bytes on a host with a std::size_t of two bytes is C102_example_distance."
  },
  {
   "property": "C103",
   "status": "proved",
   "theorems": [
    "C103_dispatch",
    "C103_remote_call",
    "C103_session",
    "C103_history",
    "C103_double",
    "C103_single"
   ],
   "note": "Composition of C97, C100 and C102 with C31, C35, C42 and C92. The interpreter of the member functions takes get_index and the call of an action from a linkage; it is proved that linkages which agree give the same runs. Moves, reply and replace are those of Buffered.v."
  },
  {
   "property": "C104",
   "status": "proved",
   "theorems": [
    "C104_request",
    "C104_requests",
    "C104_bytes",
    "C104_dropped_bytes",
    "C104_made",
    "C104_inside",
    "C104_replaced",
    "C104_streams"
   ],
   "note": "Through the abstract machine of SpecBuffered.v. Results stated for plain dispatchers (C31, C87, C88, C89, C93) thereby hold of buffered ones."
  },
  {
   "property": "C105",
   "status": "proved",
   "theorems": [
    "C105_dispatch",
    "C105_packet",
    "C105_remote_call",
    "C105_twos",
    "C105_modes_refuted"
   ],
   "note": "NaN payloads are not modelled (FloatModel.v). The restriction to native signed modes is necessary: C52 and C105_modes_refuted. Plain dispatchers; actions with and without storage behave alike (C30)."
  },
  {
   "property": "C106",
   "status": "proved",
   "theorems": [
    "C106_programs",
    "C106_operations",
    "C106_hosts"
   ],
   "note": "Assignments between tuples or views of different element types are outside (C57). Programs which use a view after its tuple has ended are undefined: C85_programs characterises them."
  },
  {
   "property": "C107",
   "status": "proved",
   "theorems": [
    "C107_history"
   ],
   "note": "For keys whose only parameter is an array of bytes: with any other key reply does not compile in the model (Buffered.reply). The bytes of the array after the response are those of uninitialised memory, taken as given (C44)."
  },
  {
   "property": "C108",
   "status": "proved",
   "theorems": [
    "C108_every_schedule",
    "C108_fair"
   ],
   "note": "The callback which handles responses, which is not part of the library, is the one of C73: read_from of keys and hooks inside of it are the definitions of Rpc.v (by statements: C102, C103)."
  },
  {
   "property": "C109",
   "status": "proved",
   "theorems": [
    "C109_history",
    "C109_replace",
    "C109_session"
   ],
   "note": "operator[], reply and moves are not part of these histories (for integers: C61, C63, C107). With another signed representation values may be lost, as C105_modes_refuted shows."
  },
  {
   "property": "C110",
   "status": "proved",
   "theorems": [
    "C110_history",
    "C110_resumes",
    "C110_putter",
    "C110_stuck"
   ],
   "note": "Buffers have less than 2^(8 sizeof(std::size_t)) bytes. operator[], reply and moves are not part of these histories (without exceptions: C107). Exceptions thrown by constructors, destructors or moves of user types are not modelled. That a dispatcher serves further requests after a callback has thrown is false (C56_refuted, C110_stuck)."
  },
  {
   "property": "C111",
   "status": "proved",
   "theorems": [
    "C111_dispatch",
    "C111_getter",
    "C111_request",
    "C111_session",
    "C111_key_write",
    "C111_key_read",
    "C111_void_key",
    "C111_resumes_refuted"
   ],
   "note": "The dispatcher is executed statement by statement; the keys are modelled by functions. That an interrupted request can be resumed is false of a plain dispatcher (C111_resumes_refuted) although true of a buffered one (C54, C110); conversely a plain dispatcher goes on after a callback has thrown and a buffered one does not (C56_refuted). Exceptions of constructors, destructors or moves of user types are not modelled."
  },
  {
   "property": "C112",
   "status": "proved",
   "theorems": [
    "C112_every_schedule",
    "C112_fair"
   ],
   "note": "The statements are those of C98 to C103; the schedules those of C68. Simplifications: channels are reliable and unbounded; the bytes of a request are computed before the first one is written; a read_from which waits is run again from its beginning when one more byte is there. Types are not larger than what std::size_t and its signed counterpart can count."
  },
  {
   "property": "C113",
   "status": "proved",
   "theorems": [
    "C113_dispatcher",
    "C113_buffered"
   ],
   "note": "The statements are those of C98 to C103 and C107; the schedules those of C69. Simplifications as in C112: channels are reliable and unbounded; a read or a dispatch which waits is run again from its beginning when one more byte is there; the bytes of a response enter the channel together."
  },
  {
   "property": "C114",
   "status": "proved",
   "theorems": [
    "C114_operations",
    "C114_specification",
    "C114_hosts",
    "C114_handlers",
    "C114_transmissions"
   ],
   "note": "A program is a tree of calls and of looks at the world: the statements of the program itself are not modelled, only the calls they make. The statements of the library are those of C98 to C103 and C107. An execution which never ends is covered up to each of its points. (4) and (5) carry the results of C62 and C63 to the statements."
  }
 ]
}