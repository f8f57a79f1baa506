{"id": "C01", "title": "Unsigned integers round-trip", "statement": "Writing any unsigned integer (or bool) with write_as and reading it back with read_as under the same endianess returns the same value, on any platform whose UPD_PLATFORM_ENDIANESS is either undefined or set to its actual endianess.", "quantifier": "every unsigned width 1..8 bytes and bool, every value, both wire endianesses, every byte offset in any buffer, every correctly configured platform", "why_tests_cant": "2^64 values times every platform configuration; the test suite runs on one platform and one value", "anchors": ["include/upd/detail/endianess.hpp: from_endianess, to_endianess", "include/upd/detail/serialization.hpp: read_as, write_as"]}
{"id": "C02", "title": "Unsigned wire format is positional and platform independent", "statement": "The bytes written for an unsigned integer x of w bytes are exactly the w base-256 digits of x, least significant first for LITTLE and most significant first for BIG, whatever the platform; every other byte of the destination buffer is left unchanged.", "quantifier": "every width, value, endianess, buffer, offset and correctly configured platform", "why_tests_cant": "tests check a handful of literals on the build machine only", "anchors": ["include/upd/detail/endianess.hpp: to_endianess, to_endianess_impl", "include/upd/detail/serialization.hpp: write_as"]}
{"id": "C03", "title": "Signed integers round-trip in every representation", "statement": "Writing a signed integer then reading it back with the same endianess and signed_mode returns the same value for every value other than the minimum of the type (the minimum is the subject of C05).", "quantifier": "every width, every value but the minimum, 2 endianesses x 4 signed modes, every host (int width, actual endianess, correctly declared macros) in the class characterised by C09", "why_tests_cant": "each of the 8 formats is tested with one value (-0xabc) on one platform", "anchors": ["include/upd/detail/signed_representation.hpp: to_signed_mode, from_signed_mode", "include/upd/detail/serialization.hpp: read_as, write_as"]}
{"id": "C04", "title": "Signed wire format matches the textbook representation", "statement": "The bytes written for a signed integer are the base-256 digits of its textbook sign-magnitude, ones' complement, two's complement or offset-binary code word of the same width, so that a foreign device following the format decodes the same number.", "quantifier": "every width, every value but the minimum, endianess, signed mode, every host in the class characterised by C09", "why_tests_cant": "requires a statement over all values; the tests compare a few 16-bit literals", "anchors": ["include/upd/detail/signed_representation.hpp: to_signed_mode_impl", "doc/serialization.rst.in"]}
{"id": "C05", "title": "The minimum value of a signed type is handled without undefined behaviour", "statement": "For the minimum value of every signed type, encoding and decoding have defined behaviour and round-trip whenever the representation can express it (TWOS_COMPLEMENT, OFFSET_BINARY).", "quantifier": "every signed width at its minimum value, every mode, endianess, platform", "why_tests_cant": "signed overflow is undefined behaviour, which a passing test cannot rule out", "anchors": ["include/upd/detail/signed_representation.hpp:20-28,48-60"]}
{"id": "C06", "title": "Decoding arbitrary bytes is total and in range", "statement": "Reading an integer out of any received byte sequence of sufficient length has defined behaviour and yields a value of the requested type, equal to the textbook decoding; negative zero decodes to 0.", "quantifier": "every byte sequence, width, endianess, signed mode, every host in the class characterised by C09", "why_tests_cant": "received bytes are adversarial; only a universally quantified statement covers them", "anchors": ["include/upd/detail/signed_representation.hpp: from_signed_mode_impl", "include/upd/detail/endianess.hpp: from_endianess_impl"]}
{"id": "C07", "title": "Distinct values have distinct encodings; re-encoding a decoded sequence is canonical", "statement": "Two different values of a type never serialize to the same bytes, and decoding then re-encoding a sequence gives the same bytes back except for the negative-zero code word of SIGNED_MAGNITUDE and ONES_COMPLEMENT and, for bool, bytes other than 0 and 1.", "quantifier": "all pairs of values (signed minima excepted, C05), all byte sequences, all formats", "why_tests_cant": "injectivity ranges over pairs of values", "anchors": ["include/upd/detail/serialization.hpp: read_as, write_as"]}
{"id": "C08", "title": "Serialization is portable between platforms", "statement": "Two hosts (different int width, endianess, declared macros) in the class characterised by C09 produce the same bytes for the same value and decode the same bytes to the same value.", "quantifier": "every pair of hosts in the class characterised by C09, every type (recursively), value and format", "why_tests_cant": "the tests run on a single platform; the other platforms are never exercised", "anchors": ["include/upd/upd.hpp: platform_info", "include/upd/detail/endianess.hpp", "include/upd/detail/signed_representation.hpp"]}
{"id": "C09", "title": "Declaring the platform endianess and signed mode is only an optimisation", "statement": "Correctly defining UPD_PLATFORM_ENDIANESS and/or UPD_PLATFORM_SIGNED_MODE never changes the bytes produced nor the values read.", "quantifier": "every correct combination of the two macros on little and big endian hosts, every type and value", "why_tests_cant": "needs big-endian hosts and all macro combinations", "anchors": ["include/upd/upd.hpp:15-33", "include/upd/detail/endianess.hpp:39-72", "include/upd/detail/signed_representation.hpp:35-78"]}
{"id": "C10", "title": "Arrays are serialized element by element, contiguously", "statement": "An array of N elements (C array or std::array, possibly nested) serializes to the concatenation of the encodings of its elements in order, and reads back element-wise equal.  N is at least one: an empty std::array is counted for its sizeof, one byte or more, and is read past its end.", "quantifier": "every element type with matching sizes, every N >= 1, every content, format and platform", "why_tests_cant": "unbounded N and contents", "anchors": ["include/upd/detail/serialization.hpp:69-80,137-143", "include/upd/detail/serialization.hpp: array_t"]}
{"id": "C11", "title": "User-extended types serialize to their fields and round-trip", "statement": "A type with an upd_extension whose serialize stores the arguments of unserialize occupies exactly the sum of the serialized sizes of the unserialize parameters and unserialize(serialize(x)) = x, including when nested in tuples and other extended types.", "quantifier": "every field list (recursively), every object, format, platform and offset; any extension pair that is inverse on fields", "why_tests_cant": "extensions are user-provided: the space of types is unbounded", "anchors": ["include/upd/detail/serialization.hpp:81-86,144-149", "include/upd/tuple.hpp: serialization_size_impl"]}
{"id": "C12", "title": "Arrays of user-extended types round-trip", "statement": "An array whose elements are user-extended types serializes without gaps, without overlap and inside its storage, and reads back equal.", "quantifier": "every extended element type (any sizeof, any serialized size), every N and content", "why_tests_cant": "depends on the relation between sizeof and the serialized size of arbitrary user types", "anchors": ["include/upd/detail/serialization.hpp:77,142", "include/upd/tuple.hpp:53-61"]}
{"id": "C13", "title": "A tuple is the padding-free concatenation of its elements", "statement": "tuple<...>::size is the sum of the serialized element sizes and the bytes obtained by iterating begin()..end() are the concatenation of the encodings of the elements in order, fully determined by the constructor arguments whatever the storage contained before.  operator[](i) designates the i-th of these bytes.", "quantifier": "every element type list free of gapped arrays (C12), every list of encodable values (C05), format, platform, initial storage garbage", "why_tests_cant": "unbounded type lists; uninitialised storage is invisible to tests", "anchors": ["include/upd/tuple.hpp: tuple, tuple_base::size, tuple_base::lay", "include/upd/tuple.hpp:328-351"]}
{"id": "C14", "title": "get returns what the constructor stored", "statement": "For a tuple constructed from (or make_tuple of) args, get<I>() returns the I-th argument for every I.", "quantifier": "every type list free of gapped arrays (C12), list of encodable values (C05), index, format, platform", "why_tests_cant": "unbounded type lists and values", "anchors": ["include/upd/tuple.hpp: tuple::tuple, tuple_base::get, make_tuple"]}
{"id": "C15", "title": "set then get returns the set value", "statement": "After set<I>(v), get<I>() returns v whatever the tuple contained.", "quantifier": "every type list, tuple content (arbitrary bytes), index, value", "why_tests_cant": "unbounded contents", "anchors": ["include/upd/tuple.hpp: tuple_base::set, tuple_base::get"]}
{"id": "C16", "title": "set changes nothing but its element", "statement": "set<I>(v) leaves get<J>() unchanged for every J <> I and leaves every byte outside the I-th element range unchanged.", "quantifier": "every type list, content, pair of indices, value", "why_tests_cant": "a frame property quantified over everything else", "anchors": ["include/upd/tuple.hpp: tuple_base::set"]}
{"id": "C17", "title": "Sets are last-writer-wins and commute on distinct elements", "statement": "set<I>(a); set<I>(b) equals set<I>(b), and set<I>(a); set<J>(b) equals set<J>(b); set<I>(a) for I <> J; any sequence of sets leaves in each element the last value set to it.", "quantifier": "every sequence of set operations of any length", "why_tests_cant": "histories of unbounded length", "anchors": ["include/upd/tuple.hpp: tuple_base::set"]}
{"id": "C18", "title": "Default-constructed tuples hold zero values", "statement": "A default-constructed tuple (or make_tuple<Ts...>(e, m)) reads as zero in every integer (recursively in arrays and extended types) for every format, even where zero is not the all-zero byte pattern.", "quantifier": "every type list and format", "why_tests_cant": "unbounded type lists", "anchors": ["include/upd/tuple.hpp:313,425"]}
{"id": "C19", "title": "invoke passes every element in order", "statement": "t.invoke(f) calls f exactly once with get<0>(), ..., get<N-1>() in that order and returns its result.", "quantifier": "every type list, content and functor", "why_tests_cant": "unbounded arities and contents", "anchors": ["include/upd/tuple.hpp: tuple_base::invoke, invoke_impl, normalize"]}
{"id": "C20", "title": "A view of a sub-range aliases exactly that range of the tuple", "statement": "view<I,L>() iterates exactly the bytes of elements I..I+L-1; its get<J> equals get<I+J> of the tuple; set<J> through the view equals set<I+J> on the tuple. The slices accepted at compile time are exactly those within a tuple which has elements.", "quantifier": "every type list, content, I, L, J in range", "why_tests_cant": "unbounded type lists and index ranges", "anchors": ["include/upd/tuple.hpp: tuple::view, make_view, tuple_view", "include/upd/detail/type_traits/typelist.hpp: clip"]}
{"id": "C21", "title": "Assigning a tuple or view converts between formats and is safe under aliasing", "statement": "t = u copies every element by value even if t and u use different endianess and signed mode, and gives the same result when u is a view overlapping t's own storage: all elements are read before any is written; this holds whichever way the right-hand side is written (named object, constant, temporary).", "quantifier": "every pair of formats, every overlap, every content", "why_tests_cant": "overlap positions times formats times contents", "anchors": ["include/upd/tuple.hpp:116-122,166-178"]}
{"id": "C22", "title": "Views over arbitrary iterators behave like views over pointers", "statement": "A tuple_view bound to any forward iterator over a byte sequence reads and writes the same bytes as one bound to a plain pointer.", "quantifier": "every iterator-accessible sequence, type list (including user-extended types), content", "why_tests_cant": "depends on sizeof vs serialized size of arbitrary types", "anchors": ["include/upd/detail/serialization.hpp:87-93,150-157", "include/upd/tuple.hpp: tuple_view"]}
{"id": "C23", "title": "A tuple filled byte by byte decodes the values its bytes encode", "statement": "Copying the bytes of one tuple into another of the same type (the documented reception loop for (auto &b : t) b = read()) makes all its elements equal.", "quantifier": "every type list and content", "why_tests_cant": "unbounded", "anchors": ["doc/serialization.rst.in", "include/upd/tuple.hpp: begin, end"]}
{"id": "C24", "title": "A key packet is the index followed by the arguments", "statement": "key(args...).write_to(dest) outputs, once each and in order, the encoding of the callback index in the keyring index type followed by the encodings of the arguments; its number of bytes is the size of the index type plus the serialized sizes of the parameters (key::payload_length: see C53).", "quantifier": "every keyring, callback, argument list, format and platform", "why_tests_cant": "every keyring and arguments", "anchors": ["include/upd/key.hpp: operator(), payload_length", "include/upd/detail/serialized_message.hpp"]}
{"id": "C25", "title": "Index type is the smallest one able to hold the number of callbacks", "statement": "keyring::index_t is the smallest of uint8/16/32/64 able to represent the number of callbacks; keyring::size is not truncated and every callback index fits and is below size.", "quantifier": "every number of callbacks below 2^64", "why_tests_cant": "static_asserts check six literals", "anchors": ["include/upd/detail/type_traits/smallest.hpp", "include/upd/keyring.hpp: index_t, size"]}
{"id": "C26", "title": "Keys identify their callback uniquely", "statement": "keyring.get(f) yields a key whose index is the position of f in the list; two different callbacks of a keyring have different indices, hence requests for different callbacks never produce packets with the same index prefix.", "quantifier": "every callback list without duplicates and every pair of its members", "why_tests_cant": "all lists and pairs", "anchors": ["include/upd/keyring.hpp: key_t, get", "include/upd/detail/type_traits/typelist.hpp: find"]}
{"id": "C27", "title": "C++11 and C++17 builds agree", "statement": "The compile-time list computations (at, max, find, sum, clip) and index sequences give the same results in C++11 and C++17 mode, so a C++11 device and a C++17 device built from the same keyring use the same indices, offsets and buffer sizes.", "quantifier": "every typelist and index for which both compile", "why_tests_cant": "compile-time functions over all lists", "anchors": ["include/upd/detail/type_traits/typelist.hpp", "include/upd/detail/type_traits/index_sequence.hpp"]}
{"id": "C28", "title": "Reading a response consumes exactly its bytes and yields the returned value", "statement": "key.read_from(src) calls src exactly as many times as the serialized size of the return type (0 for void), in order, and returns the encoded value.", "quantifier": "every return type, value, format, platform, byte source", "why_tests_cant": "all values and sources", "anchors": ["include/upd/key.hpp: read_from", "include/upd/detail/io/immediate_reader.hpp"]}
{"id": "C29", "title": "An action reads all its input, then calls, then writes all its output", "statement": "Invoking an action on src/dest calls src exactly as many times as the serialized size of the parameters, then the callback exactly once with the decoded arguments, then dest exactly once per byte of the encoding of the result (input_size() and output_size(): see C30 and C53); no read happens after the callback started and no write before it returned.", "quantifier": "every signature, callback, source, destination, storage policy", "why_tests_cant": "ordering of effects over all signatures and stateful sources", "anchors": ["include/upd/action.hpp: call, insert, action_model, static_storage_duration_callback_wrapper, no_storage_action"]}
{"id": "C30", "title": "Both storage policies behave identically", "statement": "Dispatchers built with any_callback and weak_reference produce the same calls, outputs and sizes from the same inputs.", "quantifier": "every keyring, input and callback behaviour", "why_tests_cant": "all keyrings and inputs, two implementations", "anchors": ["include/upd/action.hpp", "include/upd/policy.hpp", "include/upd/dispatcher.hpp: make_action"]}
{"id": "C31", "title": "A remote call is equivalent to a local call", "statement": "Sending key(args...) into a dispatcher of the same keyring runs the associated callback once on exactly args, returns its index, and the bytes output by the dispatcher, read through the same key, give the value returned by the callback.", "quantifier": "every keyring, callback, argument list, user state, format, platforms of caller and callee", "why_tests_cant": "end-to-end over all keyrings and values", "anchors": ["include/upd/key.hpp", "include/upd/dispatcher.hpp: operator()", "README.md"]}
{"id": "C32", "title": "An invalid index has no effect", "statement": "If the index received is not below the number of callbacks, the dispatcher calls no callback, writes nothing, consumes only the index bytes and returns the index; get_action returns nullptr.", "quantifier": "every invalid index value, keyring and subsequent input", "why_tests_cant": "all invalid indices and streams", "anchors": ["include/upd/dispatcher.hpp: operator(), get_action, get_index"]}
{"id": "C33", "title": "replace affects only the designated action", "statement": "replace<I>(f) makes later requests for index I run f and leaves the behaviour of every other index unchanged; sizes and framing are unchanged.", "quantifier": "every keyring, index, replacement of the same signature, sequence of replacements", "why_tests_cant": "histories of replacements", "anchors": ["include/upd/dispatcher.hpp: replace", "include/upd/buffered_dispatcher.hpp: replace"]}
{"id": "C34", "title": "A hooked action receives the remote result", "statement": "key.with_hook(f), invoked on the response bytes of a call made with that key, calls f exactly once with the value returned by the callback.", "quantifier": "every key, returned value, hook", "why_tests_cant": "all values", "anchors": ["include/upd/key.hpp: with_hook", "include/upd/action.hpp: action::operator()"]}
{"id": "C35", "title": "Buffered dispatchers implement the packet state machine", "statement": "For any sequence of put/get/is_loaded/read_from/write_to calls a double buffered dispatcher returns the same statuses and bytes as the abstract machine: accumulate index, drop if invalid, accumulate arguments, resolve by calling the callback once and exposing its response.", "quantifier": "every history of operations of any length, every byte value and callback behaviour, every keyring whose packets and responses fit the buffers and whose declared sizes are the encoded ones (C36, C37 and C53 tell which do; the same keyrings are meant in C38 to C48)", "why_tests_cant": "unbounded histories", "anchors": ["include/upd/buffered_dispatcher.hpp: put, get, call, read_from, write_to, is_loaded"]}
{"id": "C36", "title": "The input buffer never overflows", "statement": "Whatever bytes are received in whatever order, put never writes outside the input buffer and the remaining-bytes counter never underflows.", "quantifier": "every byte stream of any length, keyring", "why_tests_cant": "adversarial unbounded streams; overflow is silent", "anchors": ["include/upd/buffered_dispatcher.hpp: needed_input_buffer_size, put"]}
{"id": "C37", "title": "The output buffer never overflows", "statement": "Resolving a request never writes outside the output buffer: the buffer is large enough for the response of every callback of the keyring.", "quantifier": "every keyring, request and callback", "why_tests_cant": "the tests only use callbacks whose result is not larger than their parameters", "anchors": ["include/upd/buffered_dispatcher.hpp: needed_output_buffer_size, call"]}
{"id": "C38", "title": "get drains the response exactly once, in order", "statement": "After a resolution, successive get() calls return the response bytes in order, is_loaded() is true exactly while bytes remain, and get() on an empty buffer returns 0 and changes nothing; write_to outputs exactly the remaining bytes.", "quantifier": "every response, every interleaving of get and write_to", "why_tests_cant": "histories", "anchors": ["include/upd/buffered_dispatcher.hpp: get, is_loaded, write_to"]}
{"id": "C39", "title": "read_from consumes exactly one packet", "statement": "read_from consumes exactly the bytes that remain of the current packet, never returns LOADING_PACKET, can resume a packet started with put, and leaves the following bytes in the source.", "quantifier": "every partially loaded state, byte stream, keyring", "why_tests_cant": "all streams and resume points", "anchors": ["include/upd/buffered_dispatcher.hpp: read_from", "include/upd/detail/io/immediate_reader.hpp"]}
{"id": "C40", "title": "A dropped packet resynchronises and is harmless", "statement": "After DROPPED_PACKET the dispatcher input state is the initial one: the next byte starts a new packet; no callback ran and the pending output is untouched (double buffered).", "quantifier": "every invalid index and state", "why_tests_cant": "all histories before the drop", "anchors": ["include/upd/buffered_dispatcher.hpp:152-156"]}
{"id": "C41", "title": "Double buffering tolerates any interleaving of reception and emission", "statement": "With a double buffered dispatcher, receiving bytes of the next request never alters the response bytes still to be sent, until the next request resolves.", "quantifier": "every interleaving of put and get", "why_tests_cant": "all interleavings", "anchors": ["include/upd/buffered_dispatcher.hpp: double_buffered_dispatcher", "doc/callee.rst.in"]}
{"id": "C42", "title": "Single buffering is correct in half-duplex use", "statement": "A single buffered dispatcher behaves as the abstract machine on every history in which no byte is put while a response is still pending; the response is produced correctly although it overwrites the request in the same buffer.", "quantifier": "every half-duplex history", "why_tests_cant": "all histories", "anchors": ["include/upd/buffered_dispatcher.hpp: single_buffered_dispatcher"]}
{"id": "C43", "title": "Streams of requests are processed in order regardless of chunking", "statement": "Feeding the concatenation of any number of requests byte by byte, or through read_from, in any chunking, runs the corresponding callbacks in order on their arguments, each exactly once, with the responses of a sequence of local calls.", "quantifier": "every list of requests of any length, every chunking", "why_tests_cant": "unbounded request sequences", "anchors": ["include/upd/buffered_dispatcher.hpp: put, read_from, call"]}
{"id": "C44", "title": "reply forwards a complete response to another dispatcher", "statement": "If reply(out, k) returns true then out received a request for k whose byte-buffer argument starts with the whole response and the output buffer is empty afterwards; the peer, hooking the original key on that buffer, recovers the value. If it returns false nothing was written and nothing changed.", "quantifier": "every response, buffer of at least one byte, key, dispatcher state", "why_tests_cant": "all states and sizes", "anchors": ["include/upd/buffered_dispatcher.hpp: reply"]}
{"id": "C45", "title": "Moving a buffered dispatcher preserves its progress", "statement": "A dispatcher moved at any point (mid-request or mid-response) continues exactly as the original would have.", "quantifier": "every state reachable and every continuation", "why_tests_cant": "all move points and continuations", "anchors": ["include/upd/buffered_dispatcher.hpp", "test/buffered_dispatcher.cpp"]}
{"id": "C46", "title": "Replacing a callback mid-packet does not break framing", "statement": "Replacing a callback with one of the same signature between any two bytes of a request leaves statuses and byte counts unchanged; the callback in place at resolution time is the one which runs.", "quantifier": "every position of the replacement in every history", "why_tests_cant": "all interleavings of replace and put", "anchors": ["include/upd/buffered_dispatcher.hpp: replace, put, call"]}
{"id": "C47", "title": "Processing in place is safe", "statement": "dispatcher(buf, buf) and buffered_dispatcher(buf, buf), with the same memory as input and output, give the same result as with separate memories.", "quantifier": "every request and overlap at the same start", "why_tests_cant": "all requests; aliasing is invisible to separate-buffer tests", "anchors": ["include/upd/detail/io/immediate_process.hpp", "test/buffered_dispatcher.cpp: use_parenthesis_operator"]}
{"id": "C48", "title": "operator() writes only what it resolved", "statement": "buffered_dispatcher(src, dest) outputs the complete response exactly when the packet is resolved and nothing when it is dropped.", "quantifier": "every stream and state", "why_tests_cant": "all streams", "anchors": ["include/upd/buffered_dispatcher.hpp:197-203"]}
{"id": "C49", "title": "Python keys are wire compatible with C++ keys", "statement": "In Python, key.encode(*args) returns exactly the bytes the C++ key writes for the same arguments, key.decode(bytes) returns the value the C++ key reads, and an encoded request resolved by the Python dispatcher then decoded gives the callback result.", "quantifier": "every key, argument list and response", "why_tests_cant": "all values", "anchors": ["include/upd/python.hpp: define_pykey, declare_dispatcher"]}
{"id": "C50", "title": "Python Client.call decodes bytes responses and passes others through", "statement": "Client.call(key, *args) awaits new_request on exactly key.encode(*args) and returns key.decode(response) if the response is bytes, the response itself otherwise.", "quantifier": "every key, arguments, response object", "why_tests_cant": "all responses", "anchors": ["py/unpadded/client.py"]}
{"id": "C51", "title": "Python replace installs the callback at the key's index", "statement": "Dispatcher.replace(key, f), with a key of the same keyring, makes requests of that key call f and leaves the other actions and the framing unchanged.", "quantifier": "every keyring, key, function; every later history", "why_tests_cant": "all histories", "anchors": ["include/upd/python.hpp:172-174", "include/upd/buffered_dispatcher.hpp: operator[]"]}
{"id": "C52", "title": "Every type accepted by the serializability check round-trips", "statement": "Any type for which is_serializable holds (so that tuple<...> compiles) is serialized without loss.", "quantifier": "every accepted type, including floating point types (std::is_signed is true for them)", "why_tests_cant": "all types and values", "anchors": ["include/upd/detail/type_traits/require.hpp:97-103", "include/upd/detail/serialization.hpp:182-190", "README.md: natively supports primitive types"]}
{"id": "C53", "title": "payload_length and input_size agree with the packets", "statement": "key::payload_length, action::input_size, no_storage_action::input_size and the number of bytes actually produced by the key and consumed by the action are consistent for every signature.", "quantifier": "every signature including user-extended parameter types", "why_tests_cant": "all signatures", "anchors": ["include/upd/key.hpp:96", "include/upd/action.hpp:108-111,214-217", "include/upd/detail/type_traits/signature.hpp: parameters_size"]}
{"id": "C54", "title": "A byte getter may throw without harm", "statement": "If the byte getter given to read_from throws before the request is complete, the exception leaves read_from, the bytes already obtained are kept, no callback is called and the output is unchanged; calling read_from again with the rest of the bytes resolves the request as if nothing had happened.", "quantifier": "every reachable state, every getter, every position of the exception in the request, anything happening to the world in between", "why_tests_cant": "all states and all positions of the exception", "anchors": ["include/upd/buffered_dispatcher.hpp:109-117", "include/upd/buffered_dispatcher.hpp:130-158", "include/upd/python.hpp:167"]}
{"id": "C55", "title": "A byte putter which throws loses exactly one byte", "statement": "If the byte putter given to write_to throws on some byte, the exception leaves write_to, the bytes before have been output, the byte it was given is not output again and the remaining ones are output by a further call.", "quantifier": "every reachable state with a pending response, every putter, every position of the exception", "why_tests_cant": "all states and all positions of the exception", "anchors": ["include/upd/buffered_dispatcher.hpp:165-169", "include/upd/buffered_dispatcher.hpp:179", "include/upd/python.hpp:168"]}
{"id": "C56", "title": "A buffered dispatcher survives a callback which throws", "statement": "If a callback throws, the exception leaves put or read_from and the dispatcher is ready to receive and serve another request.", "quantifier": "every reachable state, request and callback; every later sequence of bytes", "why_tests_cant": "all later histories", "anchors": ["include/upd/buffered_dispatcher.hpp:260-272", "include/upd/buffered_dispatcher.hpp:130-158", "include/upd/python.hpp:93-103"]}
{"id": "C57", "title": "Assignment between tuples of different types converts the elements as C++ does", "statement": "Assigning a tuple or view to one of other integer element types, and giving arguments of other integer types to set or to a key, stores in each element the C++ conversion of the value at the same place (the value itself when it fits). Extra elements of the source are ignored, nothing else is written, even if the objects overlap; sources with fewer or inconvertible elements, and assignments to a tuple without elements, are rejected at compile time.", "quantifier": "every pair of element type lists, formats, positions in memory and values", "why_tests_cant": "all pairs of types and all values", "anchors": ["include/upd/tuple.hpp:118-122", "include/upd/tuple.hpp:144-151", "include/upd/tuple.hpp:168-178", "include/upd/key.hpp:108-111"]}
{"id": "C58", "title": "A hook reads the response according to its own parameters", "statement": "with_hook accepts any invocable: the hook takes from the getter the bytes of its own parameters and receives them decoded as such, whatever the key returns. For an integer result it receives the value for every response exactly when its parameter has the type returned by the callback (or is a one byte integer, for bool, except signed char in OFFSET_BINARY).", "quantifier": "every key, hook signature, response and following bytes", "why_tests_cant": "all pairs of types and all values", "anchors": ["include/upd/key.hpp:138-157", "include/upd/action.hpp:53-69"]}
{"id": "C59", "title": "A Python callback which raises ends the service of the dispatcher", "statement": "A Python function given to replace is called with the converted arguments of the request. If it returns a value which converts to the return type of the key, the request is resolved and the response is that value. If it raises, or returns anything else, the exception leaves read_from, no response is pending, and read_from never returns normally again, whatever getters are given and whatever callbacks are replaced afterwards.", "quantifier": "every keyring, key, reachable state between two requests, arguments, Python function, getter, and every later call and replacement", "why_tests_cant": "all functions and all later histories", "anchors": ["include/upd/python.hpp:93-103", "include/upd/python.hpp:167-175", "include/upd/buffered_dispatcher.hpp:260-272"]}
{"id": "C60", "title": "A callback may use the dispatcher it is called by, but cannot feed it", "statement": "While a callback runs, get on the dispatcher which calls it gives zero, is_loaded gives false and replace takes place from the next request on, even for the callback which is running. The bytes it puts are lost, put returning LOADING_PACKET whatever they are: no callback runs inside another one and the next request is not affected. Putting more bytes than the input buffer has left is an access out of bounds. write_to writes nothing; read_from and operator() take bytes until the input buffer is full and one more, which is an access out of bounds: they never return. The response sent is that of the result of the callback.", "quantifier": "every keyring, dispatcher kind, program run by the callbacks (any sequence of put, get, is_loaded, replace, read_from, write_to, operator() and effects), and sequence of put and get from outside", "why_tests_cant": "all callback programs and all histories", "anchors": ["include/upd/buffered_dispatcher.hpp:130-158", "include/upd/buffered_dispatcher.hpp:179", "include/upd/buffered_dispatcher.hpp:260-272", "include/upd/action.hpp:53-69"]}
{"id": "C61", "title": "A response can be sent while bytes are received in interrupts", "statement": "When the program sends the response of a double buffered dispatcher with get, is_loaded or write_to and interrupt handlers put bytes at any moment, even in the middle of these functions, the response is sent exactly and the bytes are received as if they had been put between the calls.", "quantifier": "every reachable state, byte putter, number of interrupts, moment (between any two accesses to the members or to the buffer) and bytes put; every order of evaluation the language allows", "why_tests_cant": "all interleavings", "anchors": ["README.md:24", "include/upd/buffered_dispatcher.hpp:97", "include/upd/buffered_dispatcher.hpp:165-169", "include/upd/buffered_dispatcher.hpp:179", "doc/callee.rst.in: double buffered dispatchers", "test/snippet/slave1.cpp:20-50"]}
{"id": "C62", "title": "The interrupt handlers of the documentation send the responses", "statement": "With the handlers of the documentation, which put each byte received, send the first byte of the response when a request is complete and the next one each time a byte has been sent, the master receives the responses in order and nothing else, whatever the order of the events.", "quantifier": "every keyring, every sequence of received and sent events", "why_tests_cant": "all interleavings of receptions and transmissions", "anchors": ["test/snippet/slave1.cpp:21-51", "test/snippet/motion_keyring1.hpp:11-17", "include/upd/buffered_dispatcher.hpp:130-158", "include/upd/buffered_dispatcher.hpp:179"]}
{"id": "C63", "title": "The callee of the README serves the requests of every transmission", "statement": "The Wire.onReceive callback of the README serves every request contained in a transmission, in order, stops at an index which designates nothing, never overflows its counter, and leaves the dispatcher awaiting the beginning of a request, so that each transmission is interpreted by itself.", "quantifier": "every keyring of callbacks without result, every sequence of transmissions", "why_tests_cant": "all sequences of transmissions", "anchors": ["README.md:144-149", "README.md:42-61", "include/upd/buffered_dispatcher.hpp:130-158"]}
{"id": "C64", "title": "An extension may set and read the elements of its view as it pleases", "statement": "Whatever the order in which upd_extension<T>::serialize sets and reads back the elements of its view, the bytes written are those of the values last given to each element, in the order of the parameters of unserialize; when all are given, unserialize receives them. The bytes do not depend on the former contents of the memory exactly when every element which occupies bytes has been given a value: an extension which forgets one sends what the uninitialised storage contained.", "quantifier": "every program made of set and get, depending on the object and on what is read; every element types, format, host, position and contents of the memory", "why_tests_cant": "all programs and all values", "anchors": ["include/upd/detail/serialization.hpp:81-86,144-149", "test/snippet/serialization2", "include/upd/tuple.hpp:132-151", "include/upd/tuple.hpp:317"]}
{"id": "C65", "title": "The packets with header and checksum of the documentation are exchanged and checked", "statement": "The program of the documentation sends the header, the encoded values and the checksum of exactly the encoded values. The receiver accepts exactly the sequences of bytes made of the header, some data and the checksum of the data, and obtains the decoded data: what is sent is received on any host, and an altered packet is accepted only if the header is intact and the altered data has the checksum it carries.", "quantifier": "every header which is not empty, element types and values, width of the checksum, checksum function, format, hosts, received bytes", "why_tests_cant": "all packets and all alterations", "anchors": ["test/snippet/serialization1", "test/snippet/detail/serialization.cpp", "include/upd/tuple.hpp:132-151", "include/upd/tuple.hpp:313-337"]}
{"id": "C66", "title": "An action owns the functor it is given as a temporary, and refers to the one it is given as a variable", "statement": "An action made from a temporary or moved functor has its own state, which its calls alone change, whatever the program does with any other object or action. An action made from a variable calls the variable itself and sees every change made to it, contrary to the documented copy. The behaviour is undefined exactly when an action which refers to a destroyed variable is called; a program which only gives temporaries and moved functors to its actions has no undefined behaviour.", "quantifier": "every functor class, world, and program which declares, changes and destroys functors, makes, moves, replaces and calls actions; every input", "why_tests_cant": "all programs and all lifetimes", "anchors": ["include/upd/action.hpp:72-83", "include/upd/action.hpp:102-117", "include/upd/action.hpp:156-163,192", "include/upd/dispatcher.hpp:181-187", "doc/callee.rst.in:65", "include/upd/tuple.hpp:184"]}
{"id": "C67", "title": "A byte put while the response is sent in interrupts is the same as one put before or after the bytes sent", "statement": "When interrupt handlers send the response byte by byte (if is_loaded, get) while the main program puts bytes, each put is the same as some handlers, then the put, then other handlers: the same state, the same bytes sent in the same order and the same statuses.", "quantifier": "every keyring, reachable state, byte and stream of bytes; every number of interrupts between any two accesses of put", "why_tests_cant": "all interleavings of the handlers with the accesses of put and call", "anchors": ["include/upd/buffered_dispatcher.hpp:130-158", "include/upd/buffered_dispatcher.hpp:260-272", "include/upd/buffered_dispatcher.hpp:97", "include/upd/buffered_dispatcher.hpp:179"]}
{"id": "C68", "title": "Calls made over two channels give the results of local calls, whoever runs when", "statement": "A caller which writes each request and then reads its response, and a buffered dispatcher which puts the bytes it receives and sends its responses, exchange bytes through two channels. Whatever the order in which the caller, the receiver and the sender take their turns, nothing undefined happens and the results obtained so far are the first results of the same calls made locally; as long as work remains someone can go on; after a number of effective turns known from the signatures, all the results and the world of the callbacks are those of the local calls; and this happens as soon as everyone takes a turn often enough.", "quantifier": "every pair of hosts, keyring, list of calls (with and without responses) and schedule; single and double buffering", "why_tests_cant": "schedules are infinitely many, and depend on the speed of two hosts", "anchors": ["test/snippet/caller4", "include/upd/key.hpp:108-131", "include/upd/detail/serialized_message.hpp:31-36", "include/upd/buffered_dispatcher.hpp:97", "include/upd/buffered_dispatcher.hpp:130-158", "include/upd/buffered_dispatcher.hpp:179"]}
{"id": "C69", "title": "Requests may be made before earlier responses are received", "statement": "A caller writes requests and receives responses later, in the order of the requests, with read_from or with an action made by with_hook. The callee is a dispatcher in a loop, or a buffered dispatcher whose responses are written as soon as they are complete. Whatever the order in which caller and callee take turns, nothing undefined happens, the results obtained so far are the first results of the same calls made locally, someone can go on as long as work remains, and after a number of effective turns known from the signatures all the results and the world of the callbacks are those of the local calls and no byte is left in the channels.", "quantifier": "every pair of hosts, keyring, sequence of requests and of receptions in order, and schedule; both kinds of dispatchers", "why_tests_cant": "schedules and numbers of requests under way are unbounded", "anchors": ["test/snippet/caller4", "test/snippet/caller5", "test/snippet/callee2", "include/upd/key.hpp:108-157", "include/upd/dispatcher.hpp:119-127", "include/upd/buffered_dispatcher.hpp:130-169"]}
{"id": "C70", "title": "A signature is deduced for every kind of callback, the same in C++11 and C++17", "statement": "examine_invocable finds a signature for functions, pointers to functions and to member functions, and classes with one operator() whatever its qualifiers, const or not, by reference or not, and for nothing else; it is the signature of the declaration, the instantiation of the templates always ends, and C++11 and C++17 agree.", "quantifier": "every C++ type of the model: any parameters, qualifiers, nesting of const, volatile and references; both standards", "why_tests_cant": "types are infinitely many, and a failure is a program which does not compile", "anchors": ["include/upd/detail/type_traits/signature.hpp:22-98", "include/upd/detail/type_traits/signature.hpp:130-143"]}
{"id": "C71", "title": "Which getters and putters can be given to actions, dispatchers, keys and messages", "statement": "A getter and a putter can be given to an action or a dispatcher exactly when they are declared as byte_t() and void(byte_t), without noexcept in C++17, and can be called as lvalues; key.read_from and buffered_dispatcher.read_from take any getter giving an integer, write_to any putter which takes an integer and returns nothing; so what a dispatcher takes the others take too. The requirement checked by operator() is weaker than what its body needs.", "quantifier": "every type of getter and putter, both standards", "why_tests_cant": "a failure is a program which does not compile", "anchors": ["include/upd/detail/type_traits/require.hpp:73-79", "include/upd/detail/function_reference.hpp:41-70", "include/upd/action.hpp:175-179", "include/upd/dispatcher.hpp:119-148", "include/upd/key.hpp:121-128", "include/upd/buffered_dispatcher.hpp:109-117", "include/upd/buffered_dispatcher.hpp:165-169"]}
{"id": "C72", "title": "A keyring from which keys are made can be given to a dispatcher", "statement": "The keys of a keyring and its dispatcher compile for the same callbacks: functions and functors with static storage duration. An action is made from any callback which can be called with its own parameters, and replace accepts exactly those with the signature of the callback they replace.", "quantifier": "every type of callback, both standards", "why_tests_cant": "a failure is a program which does not compile", "anchors": ["include/upd/typelist.hpp:25-33", "include/upd/keyring.hpp:45-62", "include/upd/key.hpp:21-24", "include/upd/dispatcher.hpp:35-60", "include/upd/dispatcher.hpp:155-187", "include/upd/action.hpp:122-160", "include/upd/tuple.hpp:161-185"]}
{"id": "C73", "title": "Two devices which both initiate requests answer each other with reply", "statement": "Two devices have a buffered dispatcher each, single or double, on any hosts, and a channel to each other. Each makes requests whenever it likes, without waiting for the responses of its earlier requests and while it answers the requests of the other with reply(); responses come through the same channel as requests and are handled by a callback which takes an array of bytes, with read_from or with a hook. For every interleaving nothing undefined happens, no response is lost, each response is read with the key of its own request whatever is in the memory of the array of reply(), someone can always go on until everything is done, the number of steps is known beforehand, and in the end each device got the values of its calls made locally and the state of each is the one the other's calls made locally would leave.", "quantifier": "every pair of hosts and keyrings, every number of requests on both sides, every schedule, every content of uninitialised memory", "why_tests_cant": "schedules of two concurrent devices are unboundedly many; the only test of reply() makes one request at a time", "anchors": ["include/upd/buffered_dispatcher.hpp:219-247", "include/upd/buffered_dispatcher.hpp:130-158", "include/upd/key.hpp:108-157", "doc/caller.rst.in:60-66", "test/buffered_dispatcher.cpp:23-29", "test/buffered_dispatcher.cpp:248-271"]}
{"id": "C74", "title": "Python names of keys: the name of the callback is extracted from its demangled symbol", "statement": "demangle() finds the name of every callback of the global namespace, function or variable, whatever its type and parameters, unless the address of a function is written among its parameters (as in unevaluated<void (*)(), &g>): then the last name written that way is returned instead. Callbacks of a namespace or class are always refused, and instances of function templates too unless the address of a function is written in theirs.", "quantifier": "every type, name and parameter list, as texts; every way the backtracking of the regular expression may go", "why_tests_cant": "names and types are unbounded texts; the test has one function with templated parameters", "anchors": ["include/upd/python.hpp:34-68", "include/upd/unevaluated.hpp:18-21", "test/py/module.cpp:18-22", "test/py/test.py:104-107"]}
{"id": "C75", "title": "Python modules: each callback gets a key with its name", "statement": "A module which unpacks keyrings and declares dispatchers, with distinct names, is imported if no two keys have the same C++ type; then each callback's name is bound to the key with its index, signature and format, the class of the key has the same name with two underscores in front, each dispatcher's name is bound to its class, and there is no other attribute. If two keys of different keyrings have the same type (same index, signature and format) the import fails. A module with one keyring is always imported. A callback whose name cannot be found makes the import fail.", "quantifier": "every number of keyrings, callbacks, signatures and formats, every distinct names", "why_tests_cant": "the test module has two keyrings whose signatures happen to differ", "anchors": ["include/upd/python.hpp:71-125", "include/upd/python.hpp:136-177", "include/upd/key.hpp:65-72", "test/py/module.cpp:24-29"]}
{"id": "C76", "title": "Import hook: no recursion, nothing stale, reusable after any error", "statement": "Whatever the functions of cppimport do (return, raise, import other modules, change files), find_spec returns the module exactly when every step succeeds, and the extension it is loaded from is built after the one which was there is removed; it returns None exactly when a step raises ImportError; only another exception leaves it. Imports made meanwhile are left to the other finders, so there is no recursion. Afterwards the hook is ready, and after any sequence of imports the next one is done as if it were the first.", "quantifier": "every behaviour of the build tools, every nesting of imports, every sequence of imports", "why_tests_cant": "failures of the tools and nested imports are not exercised; the tests import one module", "anchors": ["py/unpadded/hook.py:17-40"]}
{"id": "C77", "title": "Import of the Python package: compilers", "statement": "When ccache is installed and the interpreter knows its compilers, importing the package leaves in CXX the compiler of the environment if both CC and CXX are set, else the one of the interpreter, and in CC the same with ccache in front; no other variable changes. The import fails if and only if ccache is not installed, or a compiler is missing in the environment and the interpreter does not know both of its own. An import which fails leaves the environment as it was, except for the compilers of the interpreter it set before.", "quantifier": "every environment", "why_tests_cant": "the tests run in one environment", "anchors": ["py/unpadded/__init__.py:9-16"]}
{"id": "C78", "title": "Types of the elements of tuples: which can be set, read and invoked on", "statement": "The assertion of the tuples accepts the arithmetic types and arrays without extension, arrays of anything included, and the classes which are extended. An element can be set exactly when its type is one of those the documentation cites, all the way down; by the lookup rules of the standard, an array of extended classes cannot, and the extension of an arithmetic type is ignored inside arrays. It can be read exactly when it can be set and no array it contains has elements which are plain arrays or cannot be default initialised; then a functor can be invoked on it, and is given an object of the very type of the element, although get returns std::array instead of plain arrays.", "quantifier": "every type built from arithmetic types, plain and std arrays, classes and extensions, at any depth; both lookup rules", "why_tests_cant": "the tests compile a few types; that the others do not compile cannot be a test", "anchors": ["include/upd/detail/serialization.hpp:34-93", "include/upd/detail/serialization.hpp:127-157", "include/upd/detail/serialization.hpp:182-190", "include/upd/detail/type_traits/require.hpp:97-123", "include/upd/tuple.hpp:38-93", "include/upd/tuple.hpp:131-185"]}
{"id": "C79", "title": "Types of the parameters and results of callbacks: what keys and actions accept", "statement": "A no_storage_action can be made from a callback exactly when its parameters have types which can be set, read and default initialised, none of them is a non-const lvalue reference, and its result can be set; an action can be made exactly when moreover the result is returned by value and is not const. The key can be called on any arguments and can read the response, and the action can be made, exactly when every parameter is taken by value or by const reference, the result (if any) is returned by value, and all the types can be set, read and default initialised.", "quantifier": "every list of parameters and every result, of any type, by value, const, reference, const reference or rvalue reference; every kind of argument", "why_tests_cant": "the tests compile a few signatures; that the others do not compile cannot be a test", "anchors": ["include/upd/key.hpp:67-131", "include/upd/action.hpp:33-70", "include/upd/action.hpp:107-142", "include/upd/detail/type_traits/input_tuple.hpp:15-25", "include/upd/tuple.hpp:86-93"]}
{"id": "C80", "title": "Casts from bases to derived classes", "statement": "The casts by which the bases (immediate_reader, immediate_writer, immediate_process, buffered_dispatcher) reach the object they are part of give its address, with the Itanium ABI, in all the classes of the library whatever their members. In a class the user derives from buffered_dispatcher the cast is right if and only if the class has no virtual functions, even inherited, and the bases before buffered_dispatcher are empty. With the Microsoft ABI, the casts from the second and third bases of buffered dispatchers are wrong by one and two bytes, the others are right. The layouts these claims rest on are those of real objects: with the Itanium ABI no byte belongs to two parts of an object, all the parts are inside it and aligned, two parts of the same empty class have different addresses, and in the classes of the library the bases take no room and the members follow each other with no more padding than needed. A key takes one byte.", "quantifier": "every list of bases and members, of any depth, every size of pointers", "why_tests_cant": "the tests are compiled with one ABI and derive no class", "anchors": ["include/upd/detail/io/immediate_process.hpp:18-22", "include/upd/detail/io/immediate_reader.hpp:15-19", "include/upd/detail/io/immediate_writer.hpp:16-20", "include/upd/buffered_dispatcher.hpp:62-73", "include/upd/buffered_dispatcher.hpp:280-283", "include/upd/key.hpp:67-70", "include/upd/action.hpp:151", "include/upd/dispatcher.hpp:80"]}
{"id": "C81", "title": "Tuples invoked on keys and chains of devices", "statement": "t.invoke(k).write_to(dest) sends the request with the values of the tuple, whatever the format and the storage bytes of the tuple; if tuple and key have the same format, the request is the index followed by the bytes of the tuple, unless these contain negative zeros or booleans other than 0 and 1. A call passed on through any chain of devices, each callback sending the request it receives to the next device and returning the response it gets, meets no undefined behaviour and has the effect and the result of a direct call, whatever the hosts, keyrings, formats and storage policies of the links, provided each link can represent the arguments and the result.", "quantifier": "every key, tuple and content; every number of links, every keyring, host and format at each of them", "why_tests_cant": "tests invoke tuples on local functions and have one caller and one callee in the same process", "anchors": ["include/upd/tuple.hpp:152-163", "include/upd/tuple.hpp:180-185", "include/upd/key.hpp:83-84", "include/upd/key.hpp:97-111", "include/upd/detail/serialized_message.hpp:20-36", "doc/caller.rst.in", "doc/callee.rst.in"]}
{"id": "C82", "title": "Memory allocated by actions and dispatchers", "statement": "In every program which makes, moves, assigns, replaces and destroys actions and dispatchers, whichever allocations fail and whichever callbacks throw when they are moved, every block is freed at most once and the blocks which are not freed are those the existing actions point to, so that nothing is left once the objects are destroyed. An operation which throws changes no object and leaves the same blocks: a failed replacement keeps the old callback, a failed construction frees what it had made. A replacement throws if and only if its allocation or the move of the callback fails; the construction of a dispatcher makes one allocation for each action, in order, and throws if and only if one of them fails. At no moment are there more blocks than before the operation plus those it needs (one for a replacement). Dispatchers with the policy weak_reference allocate nothing.", "quantifier": "every sequence of operations, every pattern of failures, any number of moves not elided", "why_tests_cant": "tests make no allocation fail and count no allocations", "anchors": ["include/upd/action.hpp:75-93", "include/upd/action.hpp:100-118", "include/upd/action.hpp:153-163", "include/upd/action.hpp:192", "include/upd/action.hpp:202-239", "include/upd/dispatcher.hpp:28-66", "include/upd/dispatcher.hpp:144-187", "include/upd/policy.hpp:17-26"]}
{"id": "C83", "title": "Iterators used as byte streams", "statement": "An iterator passed to read_from, write_to or operator() is copied; read_from fetches exactly as many elements as the packet has bytes, in order, then the callback runs, and a missing element makes the call wait or fail. A pointer passed twice processes the same packet twice. A request written through a pointer overwrites the elements it needs and no others, an array too small is overrun, and reading the same elements back gives the packet if and only if they are not of type bool. An integer or enumeration element gives its value modulo 256, a floating-point one its truncated value, which has to be that of a byte. Pointers to scoped enumerations (std::byte) and classes are refused, and pointers to constants and enumerations cannot be written through. With std::istreambuf_iterator the characters of the packet are consumed and no others. With std::istream_iterator the call returns only once the character which follows the packet has come, and that character is lost; by default white space is removed from the stream.", "quantifier": "every keyring, callback, argument, host, element type, iterator, array, stream, history of the dispatcher", "why_tests_cant": "tests use std::uint8_t arrays which hold one packet", "anchors": ["include/upd/detail/io/immediate_process.hpp:19-93", "include/upd/detail/io/immediate_reader.hpp:15-49", "include/upd/detail/io/immediate_writer.hpp:17-49", "include/upd/detail/type_traits/require.hpp:81-91", "include/upd/detail/type_traits/iterator_category.hpp:10-25", "test/static.cpp:12-15"]}
{"id": "C84", "title": "Callbacks which replace and call actions while they run", "statement": "A callback may replace, move and call actions, including the action which is calling it. The program then behaves exactly as if functors were never destroyed (responses, effects on the rest of the program, functors called next), provided nothing happens to a functor after the action which owned it was replaced; otherwise its behaviour is undefined. In particular: a functor which replaces its own action and returns is destroyed, its result is the response, and the next call is one of the new functor; if the functors owned by actions do not use their members after they have replaced an action which may own them or called another action, and variables are not destroyed, the behaviour is always defined; if actions only refer to variables (lvalues, WEAK_REFERENCE), functors may use their members at any time. Using a member after having replaced the own action, after having called an action which does so, or calling an action made from *this once the functor is gone is undefined.", "quantifier": "every set of functor classes and of actions, every program made of replacements, moves, nested calls and uses of members, every depth of nesting, host and format", "why_tests_cant": "tests replace actions between requests, with functions or lambdas which hold nothing; the use of freed memory usually goes unnoticed", "anchors": ["include/upd/action.hpp:42-118", "include/upd/action.hpp:120-141", "include/upd/action.hpp:151-239", "include/upd/dispatcher.hpp:57-66", "include/upd/dispatcher.hpp:118-128", "include/upd/dispatcher.hpp:150-196", "doc/callee.rst.in:63-75"]}
{"id": "C85", "title": "Programs of tuples, views and structured bindings", "statement": "A program declares, copies, assigns and destroys tuples, makes views of slices of them, copies and assigns views, gets and sets elements, and introduces names by structured bindings (by value or by reference). It prints exactly what the same program prints when tuples are plain lists of values, views are ranks in such lists and names are values, except when it gets, sets or binds the elements of a view (or assigns them to or from an object of another type) after the tuple it views was destroyed, in which case, and only then, its behaviour is undefined. There are as many names as element types and each of them has the value of its element when it was bound, until something is assigned to it, even if the tuple changes or is destroyed; assigning to a name changes no tuple and no view, even after auto &[...].", "quantifier": "every program (sequence of operations), every element type, value, endianess and signed mode, every host", "why_tests_cant": "tests bind the names of one tuple once and never destroy what a view refers to", "anchors": ["include/upd/tuple.hpp:118-151", "include/upd/tuple.hpp:168-178", "include/upd/tuple.hpp:194-216", "include/upd/tuple.hpp:225-295", "include/upd/tuple.hpp:304-399", "include/upd/tuple.hpp:431-449", "test/tuple.cpp:193-206"]}
{"id": "C86", "title": "Recovery of framing after bytes were lost", "statement": "Whatever bytes a buffered dispatcher received before (lost, duplicated or corrupted bytes included), putting the byte 255 until put() returns DROPPED_PACKET takes at most 2 w - 1 + L bytes, where w is the size of the index and L the largest size of the arguments of a callback, calls at most one callback (none if the dispatcher was awaiting a request) and leaves the dispatcher awaiting the beginning of a request. When w = 1, sending n bytes 255 without looking at the answer leaves it so whatever it received before if, and only if, L <= n, and a request sent after that is served; when w >= 2, no n is enough. Nothing else recovers in general: with a keyring of three callbacks of one byte, when the first byte of a sequence of requests is lost, each argument is taken for the index of the next request for as long as the sequence lasts, and no packet is dropped.", "quantifier": "every keyring, every history of legitimate operations, every n, every sequence of requests", "why_tests_cant": "tests put whole valid requests in order; none loses a byte", "anchors": ["include/upd/buffered_dispatcher.hpp:130-158", "README.md:84-112", "README.md:139-163"]}
{"id": "C87", "title": "Devices which do not use the same format", "statement": "A value written with one endianess and signed mode and read with others, on any two hosts, is the same for every value of the type if, and only if, the byte orders are equal or every integer of the type has one byte, and the representations of negative numbers are equal or the type has no signed integer. Consequently every request made with a keyring of one format is served by a dispatcher of another format (right callback, right arguments, right number of bytes) if, and only if, the formats are compatible in this sense on the type of the indices and on the types of all parameters; and every response is understood if, and only if, they are on the return type.", "quantifier": "all pairs of formats, all pairs of hosts, all types, all lists of signatures, all callbacks", "why_tests_cant": "tests use the same format on both sides; the failing values depend on the pair of formats and on the type", "anchors": ["include/upd/detail/serialization.hpp:59-149", "include/upd/format.hpp:10-13", "include/upd/key.hpp:96-131", "include/upd/dispatcher.hpp:119-149"]}
{"id": "C88", "title": "Keyrings which grow", "statement": "A caller built with a keyring and a callee built with another of the same format, having callbacks of the same signature at index i: if both index types have the same size, the requests for i are byte for byte those of the callee's own keyring, they are served and the response is read by the caller, whatever the other callbacks are. If the sizes differ, no request for i is served: whatever the arguments and the bytes which follow, when the callee finds index i it takes more or fewer bytes than the request has. The sizes are equal if, and only if, both numbers of callbacks are below 256 or neither is, and the same for 65536 and 2^32.", "quantifier": "all pairs of keyrings, all shared indices, all arguments, all bytes following the request", "why_tests_cant": "tests and snippets use the very same keyring on both sides; the failure appears at the 256th callback", "anchors": ["include/upd/keyring.hpp:40-97", "include/upd/detail/type_traits/smallest.hpp:14-40", "include/upd/dispatcher.hpp:119-149"]}
{"id": "C89", "title": "Caller and callee which disagree on the parameters", "statement": "The grouping of integers into arrays and objects does not show on the wire: keys of the same format and index whose parameters are made of the same integers write the same packet exactly when their arguments are made of the same numbers. A callee whose callback has other parameters and another format than the caller believes is always called on the numbers the caller gave, the next request being found right after, if and only if the integers of both lists of parameters agree one by one: same width, both unsigned or both signed with the same representation, same byte order unless of one byte; a bool may also be received as an integer of one byte, unless it is signed in offset binary, but not conversely. The same for the response and its type.", "quantifier": "all pairs of hosts, of formats, of signatures and of keyrings with the same type of indices; all arguments", "why_tests_cant": "tests use one declaration on both sides; a disagreement shows only on some values (a negative one, or one above 1 for a bool)", "anchors": ["include/upd/tuple.hpp:131-185", "include/upd/detail/serialization.hpp:59-157", "include/upd/key.hpp:96-131", "include/upd/dispatcher.hpp:119-149", "include/upd/action.hpp:53-69"]}
{"id": "C90", "title": "Bytes from a stranger", "statement": "Whatever bytes arrive, in whatever order they are interleaved with the output and with the replacement of callbacks by others of the same signature, a buffered dispatcher never has undefined behaviour if and only if, for every signature of the keyring, the encoded parameters fit in the input buffer, the encoded result fits in the output buffer, and every sequence of bytes can be read as each parameter. The last holds exactly of the types without a bool encoded in the byte order of the host and without a signed integer whose minimum cannot be negated where two's complement is translated. The same for a plain dispatcher, which only needs the last.", "quantifier": "all hosts, keyrings, formats, buffers, initial contents of the buffers, sequences of bytes and interleavings; all callbacks whose results can be encoded", "why_tests_cant": "tests feed packets made by the keys of the same program; what a faulty or malicious peer can send is the space of all byte sequences", "anchors": ["include/upd/buffered_dispatcher.hpp:97-158", "include/upd/buffered_dispatcher.hpp:260-314", "include/upd/dispatcher.hpp:119-149", "include/upd/action.hpp:53-69", "include/upd/detail/serialization.hpp:59-157"]}
{"id": "C91", "title": "Receiving while a response is pending, with one buffer", "statement": "In every history, whatever is received while responses are pending, a single buffered dispatcher makes the same calls, returns the same statuses and has the same number of bytes to send as a double buffered one; the only difference is that a byte received in position n of a request takes the place of the byte n of the pending response. So a response is sent intact whenever each byte n of the next request is received after the byte n of the response was sent, and a host which sends n bytes of the next request too early reads these n bytes instead of the first n of the response.", "quantifier": "all histories of the operations of a buffered dispatcher, without any condition of half duplex; all keyrings, formats, hosts and initial contents of the buffer", "why_tests_cant": "tests of the single buffered dispatcher read each response before the next request; what an overlap does depends on how bytes interleave", "anchors": ["include/upd/buffered_dispatcher.hpp:97-179", "include/upd/buffered_dispatcher.hpp:260-272", "include/upd/buffered_dispatcher.hpp:285-321"]}
{"id": "C92", "title": "Altered bytes", "statement": "When bytes of a request are altered on the wire and none is lost: if the index is intact the same callback is called once, at the same byte, only the arguments some bytes of which were altered differ, and the next request is understood; if the index is altered the next request is understood when the callback it designates takes as many bytes of arguments, and otherwise the rest of the request is taken for requests, or the missing bytes are taken from the next request, which is lost. The keyrings with which no alteration of a request to another valid one can harm the next requests are exactly those all of whose callbacks take as many bytes of arguments.", "quantifier": "all histories before, all requests and all alterations of their bytes; all keyrings, formats, platforms; single and double buffering", "why_tests_cant": "tests feed the bytes keys wrote, or an invalid index; the alterations of one request of n bytes are 256^n", "anchors": ["include/upd/buffered_dispatcher.hpp:101-158", "include/upd/buffered_dispatcher.hpp:258-281"]}
{"id": "C93", "title": "Any two keyrings", "statement": "A caller and a callee are built from keyrings which differ in any way: formats, number of callbacks, order, signatures. Every request of the caller runs the callback of the callee with the same index on the same numbers, both streams stay framed, and the caller gets the numbers which the callback returned, if and only if: the callee has as many callbacks at least, the indices of both have the same size, and the same byte order unless they have one byte, the integers of the parameters agree one by one (same width and signedness, same byte order unless of one byte, same representation if signed, or a bool read as an integer of one byte), and so do the integers of the returned values in the other direction.", "quantifier": "all pairs of lists of signatures, formats and platforms; all callbacks with them, all arguments and returned values which both sides can express, all bytes which follow", "why_tests_cant": "tests use the same keyring on both sides; pairs of keyrings are unbounded in number", "anchors": ["include/upd/keyring.hpp:28-103", "include/upd/key.hpp:84-134", "include/upd/dispatcher.hpp:181-204", "include/upd/action.hpp:14-47"]}
{"id": "C94", "title": "Translation units with different macros", "statement": "A program is linked from translation units which do not define UPD_PLATFORM_ENDIANESS and UPD_PLATFORM_SIGNED_MODE in the same way, all of them truthfully. The two versions of from_endianess, to_endianess, from_signed_mode and to_signed_mode have the same name for the linker, which keeps either. Every program which can result writes and reads signed integers of w bytes as documented if and only if: w is 8, or the host is little endian, or the translation units agree on whether the two shortcuts are taken for the format. Unsigned integers are always right. That each translation unit is right alone is not enough.", "quantifier": "all hosts, lists of translation units, choices of the linker for each function, type and format; all formats, types (integers, arrays, extended types), values, memories and offsets", "why_tests_cant": "each test is one translation unit; the choice of the linker cannot be enumerated", "anchors": ["include/upd/upd.hpp:15-33", "include/upd/detail/endianess.hpp:40-72", "include/upd/detail/signed_representation.hpp:36-78", "include/upd/detail/serialization.hpp:59-86,127-149"]}
{"id": "C95", "title": "Member functions called from two threads", "statement": "Two threads call put, get, is_loaded and replace of one double-buffered dispatcher without synchronisation. There is a data race if and only if both use the same resource and one changes it, where the resources are: the request being received (changed by every put), the response (changed by the put which completes a request and by the get of a pending byte, otherwise read by get and is_loaded) and each action (changed by replace, read by the put which ends the index or completes the request). So a thread may receive while another one sends exactly as long as no request is completed. Without such a conflict each thread sees what it would see alone and every interleaving ends as the calls of one thread followed by those of the other. With one buffer, a put and a get race if and only if the put completes a request or writes the byte the get reads. That two buffers are enough to receive and send at the same time is false: a get while nothing is pending can read outside the output buffer because a put completes a request.", "quantifier": "all platforms, keyrings of any length, reachable states, lists of calls in each thread, interleavings, and evaluation orders left open by C++", "why_tests_cant": "the tests are sequential; interleavings of accesses cannot be enumerated or forced", "anchors": ["include/upd/buffered_dispatcher.hpp:97,130-158,179,182-217,260-272", "doc/callee.rst.in:14,45"]}
{"id": "C96", "title": "Build options and macros, true or not", "statement": "The value of UPD_PLATFORM_ENDIANESS or UPD_PLATFORM_SIGNED_MODE given to CMake leaves the macro undefined if and only if it is one of the constants CMake takes for false, otherwise a program compiles if and only if it is exactly the name of an enumerator. Whatever the macros say, an unsigned integer is written as documented, and read as documented, if and only if the endianess of the format is not the declared one, or is that of the host, or the integer has one byte; for a signed integer it is moreover needed that the signed mode of the format is not the declared one or is two's complement and that, on a big-endian host and for fewer than eight bytes, both members of the format are the declared ones or none is. So the configurations fit for every format are exactly: no option, or true options on a little-endian host.", "quantifier": "all values of both options (strings), hosts of either endianess with any size of int and any indeterminate bytes, formats, widths from one to eight bytes, values, byte sequences and offsets; for the last sentence all serializable types", "why_tests_cant": "continuous integration configures one host with one pair of options; the options are CMake cache entries and no test can run with macros which lie or on a big-endian host", "anchors": ["CMakeLists.txt:6-9", "include/CMakeLists.txt:11-21", "include/upd/upd.hpp:15-33", "include/upd/format.hpp:10-13", "include/upd/detail/endianess.hpp:18-75", "include/upd/detail/signed_representation.hpp:18-81", ".github/workflows/code-quality.yml:25,35"]}
{"id": "C97", "title": "The integer code statement by statement", "statement": "The statements of from_endianess, to_endianess, from_signed_mode, to_signed_mode, their _impl functions and the overloads of read_as and write_as for integers, transcribed line by line and run by an interpreter of C++ which stores variables as the bytes of objects and infers promotions, usual arithmetic conversions and undefined behaviour from the types of the operands, give for every integer type exactly the value, the bytes or the fault of the functions of the model, whatever the sizes of int and std::size_t. So unsigned integers are written as documented and read back, and signed ones on the hosts of C03 and C04; the loops stop after at most eight turns, and nothing depends on the size of std::size_t.", "quantifier": "all hosts with int and std::size_t from two to eight bytes, endianess, macros and indeterminate bytes, all formats, bool and integer types of one to eight bytes, values, byte sequences of any length and offsets, in or out of bounds", "why_tests_cant": "where a promotion or a conversion happens is decided by the compiler from types which differ between hosts; a test on one host sees one set of conversions", "anchors": ["include/upd/detail/endianess.hpp:18-75", "include/upd/detail/signed_representation.hpp:13-81", "include/upd/detail/serialization.hpp:59-68", "include/upd/detail/serialization.hpp:127-136"]}
{"id": "C98", "title": "Sizes and counters in std::size_t", "statement": "With every sum of sizes and every counter computed in a std::size_t which wraps, a buffered dispatcher whose buffer is shorter than 2^(8*sizeof(std::size_t)) behaves on every history exactly as with natural numbers: same bytes, calls, statuses and faults, and no counter ever wraps or goes below zero. The storage of a tuple, the payload_length of a key and the input buffer have the size of what they hold if and only if that size is a std::size_t; otherwise they are silently too small, except that in C++17 the buffer does not compile when only the addition of the index wraps.", "quantifier": "all sizes of std::size_t, keyrings, features, contents of memory, histories of operations, callbacks, byte getters and putters, both standards", "why_tests_cant": "sizes which wrap need more than 65535 bytes of parameters on a small target or more memory than exists elsewhere; the tests are compiled for a host where std::size_t has eight bytes", "anchors": ["include/upd/buffered_dispatcher.hpp:28-36", "include/upd/buffered_dispatcher.hpp:109-179", "include/upd/buffered_dispatcher.hpp:260-282", "include/upd/detail/type_traits/typelist.hpp:135-157", "include/upd/detail/type_traits/typelist.hpp:192-216", "include/upd/detail/type_traits/signature.hpp:104-118", "include/upd/tuple.hpp:100-149", "include/upd/key.hpp:96"]}
{"id": "C99", "title": "Getters and putters which use the dispatcher", "statement": "Byte getters and putters may call the member functions of the buffered dispatcher they are given to: read_from, write_to and operator() then do exactly what the packet machine does when used in the same way. A getter which receives nothing itself makes read_from return after boundedly many bytes, with DROPPED_PACKET or RESOLVED_PACKET and no request under way. On a link which sends a byte whenever it receives one, read_from with a getter which exchanges the byte given by get() sends the pending response then zeros, and what exceeds the length of the request is lost if the request is resolved; write_to with a putter which puts the byte received keeps what it receives, sends the whole response if it is shorter than what is missing, and otherwise goes on with the response of the request thus completed. It need not return; and read_from with a getter which puts may return LOADING_PACKET although a request was resolved.", "quantifier": "all platforms, keyrings, reachable states, getters and putters built from the operations but moves, worlds, exchanges, numbers of turns", "why_tests_cant": "getters and putters are arbitrary programs interleaved with the loops of the dispatcher; the tests only use getters and putters which do not touch it", "anchors": ["include/upd/buffered_dispatcher.hpp:97-117", "include/upd/buffered_dispatcher.hpp:130-179", "include/upd/buffered_dispatcher.hpp:197-203"]}
{"id": "C100", "title": "The buffered dispatcher, statement by statement", "statement": "put, get, is_loaded, call, read_from, write_to and operator() of buffered_dispatcher, and operator() of dispatcher, transcribed statement by statement in a language with the types, conversions, side effects, loops, calls and lambdas they use, do what the functions of the model do: from any members put and get change the same members in the same way, call the same action with the same bytes and return the same status or byte, and fail in the same cases; the loops of read_from and write_to, given enough turns, end in the same way. So whatever sequence of operations is done on a buffered dispatcher whose sizes fit in std::size_t, running the statements gives what the model with natural numbers gives.", "quantifier": "all platforms, sizes of std::size_t from that of int to 8, keyrings, buffers, members, getters, putters, callbacks, worlds and sequences of operations", "why_tests_cant": "a test runs the compiled code on a few inputs; the theorem relates each statement of the source to the functions about which the other properties are proved, for all of them", "anchors": ["include/upd/buffered_dispatcher.hpp:97-117", "include/upd/buffered_dispatcher.hpp:130-179", "include/upd/buffered_dispatcher.hpp:197-203", "include/upd/buffered_dispatcher.hpp:260-282", "include/upd/dispatcher.hpp:119-127"]}
{"id": "C101", "title": "Accesses made by each call", "statement": "In any state a buffered dispatcher reaches, with one or two buffers and whatever the order in which the compiler evaluates operands, a call reads and writes its members a number of times which is known exactly: put makes 5 accesses (the byte, m_ibuf_next, m_load_count); with the last byte of an index of w bytes which designates a callback, 5 + w more (3 + w if it designates nothing); and, when the request is complete, 7 + w more, plus one for each byte of the arguments, three for each byte of the result, and one if there are arguments. get makes 5, or 2 when no response is pending; is_loaded 2; replace 1. A callback is called exactly once, by the put which returns RESOLVED_PACKET, and never by another call. So a call never costs more than a constant known from the keyring, whatever was received before, and a whole request costs 12 + 7w + 6 times the bytes of its arguments + 3 times those of its result (+ 1 if there are arguments).", "quantifier": "all platforms, orders of evaluation, keyrings, storage policies, numbers of buffers, reachable states, and sequences of put, get, is_loaded and replace", "why_tests_cant": "a test can measure a duration on one history; that no history makes a call longer than a constant, which is what allows put to be called in an interrupt, is a statement about all of them", "anchors": ["include/upd/buffered_dispatcher.hpp:97", "include/upd/buffered_dispatcher.hpp:130-158", "include/upd/buffered_dispatcher.hpp:179", "include/upd/buffered_dispatcher.hpp:260-272", "include/upd/action.hpp:53-69"]}
{"id": "C102", "title": "The functions of the library, statement by statement", "statement": "The statements of read_as and write_as for arrays, user types and iterators which are not pointers, of get, set, lay and invoke and of the constructors of tuples and views, of call and the static wrapper of actions, of the call and read_from of keys with serialized_message::write_to, and of dispatcher::get_index, written down as in the source and run by an interpreter (local variables, arrays of bytes which die with their function, pointers, std::size_t arithmetic, std::next with its signed distance, range-based loops and calls), compute exactly what the definitions used by the other properties say: same bytes, same calls of the getter, the putter and the callback in the same order, same results and same faults; the arrays of the caller are not changed unless written to, and every loop ends. This holds on every host as long as no object or tuple is larger than what std::size_t, for offsets std::ptrdiff_t, can count; beyond, it does not.", "quantifier": "all hosts, sizes of int and std::size_t, formats, types, values, memories, positions, getters, putters and callbacks", "why_tests_cant": "tests only compare the outcome of a few instantiations, on one host; that the statements implement these functions for every type and every content of the memory cannot be enumerated", "anchors": ["include/upd/detail/serialization.hpp:59-180", "include/upd/tuple.hpp:131-185", "include/upd/tuple.hpp:225-249", "include/upd/tuple.hpp:303-407", "include/upd/action.hpp:34-69", "include/upd/action.hpp:122-141", "include/upd/key.hpp:108-131", "include/upd/detail/serialized_message.hpp:19-36", "include/upd/dispatcher.hpp:141-149"]}
{"id": "C103", "title": "The whole library as one program", "statement": "The statements of the member functions of dispatcher and of the buffered dispatchers, linked to those of get_index, actions, tuples and read_as/write_as, down to the shifts and bitwise operators which build and split integers, run as one program: d(src, dest) does what the model of dispatching says; a remote call made of the statements of the key on one host and of the dispatcher on another invokes the callback exactly once with the arguments of the caller, gives back its result and leaves the bytes beyond the packets; any number of calls made one after the other through a buffered dispatcher, byte by byte with put and get, run the callbacks in turn and give back their results; every history of calls on a buffered dispatcher is what Buffered.v computes, hence, for double buffering and for single buffering used in half duplex, what the abstract machine of SpecBuffered.v shows. Every loop and every call ends. Sizes of int and std::size_t may differ from host to host as long as they can count the objects and packets of the keyring and callbacks return a value of their type.", "quantifier": "all pairs of hosts, sizes of int and std::size_t, keyrings, features, callbacks, arguments, histories of calls, getters and putters", "why_tests_cant": "each layer can be tested alone on chosen inputs; that the layers fit together for every keyring, host and history is a statement about their composition", "anchors": ["include/upd/dispatcher.hpp:119-149", "include/upd/buffered_dispatcher.hpp:97-203", "include/upd/buffered_dispatcher.hpp:260-277", "include/upd/action.hpp:34-69", "include/upd/key.hpp:108-131", "include/upd/tuple.hpp:131-249", "include/upd/detail/serialization.hpp:59-180", "include/upd/detail/endianess.hpp:18-75", "include/upd/detail/signed_representation.hpp:13-81"]}
{"id": "C104", "title": "A buffered dispatcher and a plain one are interchangeable", "statement": "A dispatcher and a buffered dispatcher which hold the same callbacks, whatever the storage of their actions, do the same with the same source and the same destination: operator() of the buffered one, used between two requests and, for single buffering, with no response pending, has the effects of operator() of the plain one on the world, in the same order, and fails when and how it fails; its status is RESOLVED_PACKET when the index which the plain one returns designates a callback and DROPPED_PACKET otherwise. So it is of any number of requests in a row, and of the bytes of a request given one by one followed by the response. For keyrings whose callbacks can be called on whatever bytes, a stream of any bytes is understood by both alike: same calls, same responses, same bytes left, same end of input. Replacing a callback in both keeps them alike.", "quantifier": "all keyrings, storages of actions, hosts, reachable states of the buffered dispatcher, sources, destinations, worlds, numbers of requests and streams of bytes whose requests can be decoded and answered", "why_tests_cant": "the test suite tests dispatchers and buffered dispatchers apart, on a few packets each; that one can replace the other on every stream is a relation between two implementations", "anchors": ["include/upd/dispatcher.hpp:98-149", "include/upd/buffered_dispatcher.hpp:97-203", "include/upd/buffered_dispatcher.hpp:260-277"]}
{"id": "C105", "title": "Remote calls with floating point values", "statement": "On hosts whose native signed mode is the one of the keyring, a remote call whose parameters and result contain floating point values of at most eight bytes (alone, in arrays, in objects of user types, nested in any way, beside integers) gives the callback the arguments of the caller and gives the caller the result of the callback: every number, both zeros, the infinities and NaN. The request is the index followed by the arguments, each floating point value being sent as its bits in the byte order of the keyring; a dispatcher does with such a keyring exactly what it does, on every source, destination and world, with the keyring where each floating point type is replaced by the signed integer type of the same size. With two's complement, a type with floating point values inside compiles only on hosts whose native mode it is; with the other modes the same program may compile and deliver other arguments (1.5 + -0.25 computed as 1).", "quantifier": "all keyrings whose types are made of integers, IEEE interchange formats, arrays and user types, all callbacks, well-formed hosts, byte orders, arguments, worlds, sources and destinations", "why_tests_cant": "the test suite never transmits a floating point value; the bit patterns and nestings are unbounded, and the failure with non-native modes depends on the host", "anchors": ["include/upd/detail/serialization.hpp:59-86", "include/upd/detail/serialization.hpp:127-149", "include/upd/detail/signed_representation.hpp:12-78", "include/upd/tuple.hpp:131-185", "include/upd/action.hpp:34-69", "include/upd/key.hpp:108-131", "include/upd/dispatcher.hpp:119-149"]}
{"id": "C106", "title": "Programs of tuples, views and structured bindings, statement by statement", "statement": "A program which declares tuples (with values or as copies), takes views, copies, rebinds and assigns tuples and views, reads and writes elements, declares structured bindings by value or by reference, reads and assigns their names, and lets tuples end, run statement by statement with the bodies of the templates it calls (offsets, get, set, lay, the loops over bytes with the integer arithmetic of the host), prints the values which were stored, if no view is used after the end of its tuple; it prints what the operations of C85 print, and the same values on every host on which it compiles.", "quantifier": "all legal programs of any length without dangling views whose tuples fit the address space, element types nested in any way, byte orders, signed modes, hosts with int and std::size_t of two to eight bytes", "why_tests_cant": "the tests run a dozen fixed sequences of at most four operations on one host; aliasing between views and tuples, rebinding and copies compose without bound", "anchors": ["include/upd/tuple.hpp:118-151", "include/upd/tuple.hpp:168-185", "include/upd/tuple.hpp:190-250", "include/upd/tuple.hpp:303-398", "include/upd/tuple.hpp:401-407", "include/upd/tuple.hpp:429-449"]}
{"id": "C107", "title": "Replies, statement by statement", "statement": "Any sequence of operations on a buffered dispatcher and of calls of reply, run statement by statement (the condition, write_to through an iterator on the local array, the request written by the key down to the integer code, counters and sizes in std::size_t), returns what the specification says and sends the same bytes: reply returns true exactly when none of the bytes of the last response has been taken and the response fits the array of the key; then it sends the index of the key and the array which starts with the whole response, and the output is empty afterwards; otherwise it sends nothing and changes nothing.", "quantifier": "all histories of any length which mix receiving, sending, replacing, moving and replying; all keyrings of describable callbacks, both kinds of buffers, all reply keys whose array std::size_t can count, destinations, contents of uninitialised memory, hosts with int of two bytes or more and std::size_t up to eight bytes", "why_tests_cant": "the tests call reply twice, on one host, after one request; whether bytes were taken depends on the whole history and the loops and counters compose without bound", "anchors": ["include/upd/buffered_dispatcher.hpp:233-248", "include/upd/buffered_dispatcher.hpp:165-169", "include/upd/detail/io/immediate_writer.hpp:32-40", "include/upd/key.hpp:96-111"]}
{"id": "C108", "title": "Two devices which both initiate requests, statement by statement", "statement": "In the system of C73 let every request, every reception of a byte, every test of is_loaded and every reply be made of the statements of the source, down to the integer code, on hosts whose int and std::size_t may differ. For every interleaving the statements end and nothing undefined happens, no response is lost, the values got so far are the first values of the calls made locally, something can be done as long as not everything is done, the number of turns of some effect is known beforehand, and when they were taken each device got every value and what its callbacks act on is what the calls of the other made locally would leave. When both go on again and again, everything is done at last.", "quantifier": "all pairs of hosts with int of two bytes or more and std::size_t up to eight bytes, keyrings whose packets both can count and whose callbacks return values of their types, single or double buffers, lists of requests, contents of uninitialised memory and schedules of any length", "why_tests_cant": "the test of reply makes one request to one dispatcher on one host; schedules, hosts and packets are unbounded", "anchors": ["include/upd/buffered_dispatcher.hpp:130-158", "include/upd/buffered_dispatcher.hpp:219-248", "include/upd/key.hpp:96-111", "include/upd/detail/serialized_message.hpp:31-36", "doc/caller.rst.in:60-66"]}
{"id": "C109", "title": "Buffered dispatchers with floating point values", "statement": "Let parameters and results hold values of floating point types, alone, in arrays or in user types, and let the host's signed representation be the one of the keyring. Then a buffered dispatcher behaves in every history (put, get, is_loaded, read_from, write_to, operator(), replace, changes from outside), faults included, as the one of the keyring where each floating point type is the unsigned type of its bits. For every list of calls, if the buffers suffice (the conditions of C36, C37 and C53) and arguments and results exist on both hosts, sending each request byte after byte to the dispatcher, writing its response and reading it with the key gives LOADING_PACKET for each byte but the last, then RESOLVED_PACKET, the value which the call made locally gives, bit for bit, and leaves the callee's state as the local calls do.", "quantifier": "all pairs of hosts with the signed representation of the keyring, keyrings and types of IEEE formats, single or double buffers, action features, contents of uninitialised memory, histories, lists of calls, arguments and callbacks", "why_tests_cant": "no test sends a floating point value through a dispatcher; histories and bit patterns are unbounded", "anchors": ["include/upd/buffered_dispatcher.hpp:67-283", "include/upd/key.hpp:96-111", "include/upd/detail/serialization.hpp:58-149", "include/upd/action.hpp:146-236", "include/upd/detail/signed_representation.hpp:12-78"]}
{"id": "C110", "title": "Exceptions statement by statement", "statement": "Let callbacks, byte getters and byte putters throw whenever they like. Executing the statements of put, get, is_loaded, read_from, write_to and operator() of a buffered dispatcher, with its members as std::size_t numbers which wrap around and with an exception leaving every enclosing statement, loop and function at once, gives in every history the members, the world and the returned value or exception of each operation that the functions of C54 to C56 give, faults included. Hence: a getter which throws in the middle of a request loses no byte, and the next read_from which gets the rest completes the request; a putter which throws loses exactly the byte it was given; after a callback has thrown, no byte put is ever answered by anything but LOADING_PACKET, the first byte which does not fit is written past the input buffer, and read_from does not return.", "quantifier": "all platforms, sizes of std::size_t from int to eight bytes, keyrings, single or double buffers, action features, contents of uninitialised memory, histories (with replace and changes from outside), throwing callbacks, getters and putters", "why_tests_cant": "the tests never throw; histories, buffer sizes and the moments of exceptions are unbounded", "anchors": ["include/upd/buffered_dispatcher.hpp:97-203", "include/upd/buffered_dispatcher.hpp:260-272", "include/upd/action.hpp:34-69", "include/upd/action.hpp:122-141", "include/upd/dispatcher.hpp:141-149"]}
{"id": "C111", "title": "Plain dispatchers and keys when something throws", "statement": "Let callbacks, byte getters and byte putters throw whenever they like. Executing the statements of operator() of a plain dispatcher gives the world and the index or exception that the functions of its actions give, faults included, and leaves the dispatcher itself unchanged. A getter which throws in the middle of a request makes operator() throw; no callback is called, nothing is sent, and the bytes already obtained are lost, so that the rest of the request is taken for another packet. When the callback of a complete request throws, nothing is sent; when it returns, the putter gets the bytes of the response in order until it throws. Hence in any sequence of well-formed requests of which some make their callback throw, each call consumes exactly its request and the others are served as if nothing had happened. A key whose putter throws has sent exactly the bytes of the request before; a key whose getter throws returns no value, and one which gets all the bytes of a response returns the encoded value.", "quantifier": "all platforms, sizes of std::size_t from int to eight bytes, keyrings, action features, dispatchers with any replaced callbacks of the right signatures, byte getters and putters, throwing callbacks, sequences of requests, keys, arguments and results which can be encoded", "why_tests_cant": "the tests never throw; requests, callbacks and the moments of exceptions are unbounded", "anchors": ["include/upd/dispatcher.hpp:119-127", "include/upd/dispatcher.hpp:141-149", "include/upd/action.hpp:34-69", "include/upd/action.hpp:122-141", "include/upd/key.hpp:108-131", "include/upd/detail/serialized_message.hpp:19-36"]}
{"id": "C112", "title": "A caller and a callee on two hosts, statement by statement", "statement": "A caller on one host makes calls one after the other: it writes the request of a key byte by byte to a channel, then reads the response byte by byte from another. A callee on another host puts the bytes which arrive into a buffered dispatcher and, whenever is_loaded returns true, sends the byte which get returns. When all that both ask of the library is executed statement by statement, with the sizes and conversions of each host, then whoever takes the next turn: the statements end, nothing undefined happens, and the results so far are the first results of the same calls made locally; as long as not everything is done, someone can go on; the number of turns of some effect is known beforehand from the keys, and after them the caller has all the results and what the callbacks act on is what it would be after the local calls. If everyone takes turns again and again, everything is done at last.", "quantifier": "all pairs of platforms and sizes of std::size_t, keyrings, single or double buffers, action features, contents of uninitialised memory, sequences of calls with arguments and results which can be encoded on both hosts, schedules", "why_tests_cant": "schedules, requests and hosts are unbounded; tests run caller and callee in one process, in one order", "anchors": ["include/upd/key.hpp:108-131", "include/upd/detail/serialized_message.hpp:31-36", "include/upd/buffered_dispatcher.hpp:92-179", "include/upd/buffered_dispatcher.hpp:260-282", "test/snippet/caller4", "test/snippet/slave1.cpp:21-51"]}
{"id": "C113", "title": "Requests ahead of their responses, statement by statement", "statement": "A caller on one host writes requests without waiting for the responses of the requests before, and receives the responses at any later time in the order of the requests, with read_from of the key or by calling the action made by with_hook. The callee on another host is a dispatcher called in a loop on a source which waits for bytes, or a buffered dispatcher given each byte with put and then written with write_to. When all that both ask of the library is executed statement by statement, with the sizes and conversions of each host, then whoever takes the next turn: the statements end, nothing undefined happens, the results so far are the first results of the same calls made locally; someone can go on until everything is done, which takes a number of turns of some effect known beforehand; then the results and what the callbacks act on are those of the local calls and no byte is left on any channel. If both take turns again and again, everything is done at last.", "quantifier": "all pairs of platforms and sizes of std::size_t, keyrings, action features, single or double buffers, contents of uninitialised memory, interleavings of requests and responses, arguments and results which can be encoded on both hosts, schedules", "why_tests_cant": "requests in flight, schedules and hosts are unbounded; tests receive each response before the next request is made", "anchors": ["include/upd/key.hpp:108-149", "include/upd/action.hpp:53-69", "include/upd/action.hpp:113", "include/upd/dispatcher.hpp:119-149", "include/upd/buffered_dispatcher.hpp:92-169", "include/upd/buffered_dispatcher.hpp:260-282", "test/snippet/caller4", "test/snippet/caller5", "test/snippet/callee2"]}
{"id": "C114", "title": "Any program which uses a buffered dispatcher, statement by statement", "statement": "A program constructs a buffered dispatcher and calls its member functions (put, get, is_loaded, read_from, write_to, operator(), replace, reply, a move); which call it makes next depends in any way on what the calls have returned so far and on what it sees of the world. When each call is executed statement by statement with the sizes and conversions of the host: (1) without reply, the program ends with the result, the world and the object it has with the model of C01-C96, or meets the same undefined behaviour, whether or not its uses are legitimate; (2) if its uses are legitimate, reply included, the program ends with the result and the world which the abstract machine says; (3) on any two hosts on which its uses are legitimate, whatever the buffers, the action features and the content of the memory there, it ends with the same result and world; (4) the interrupt handlers of test/snippet/slave1.cpp write to the master exactly the bytes determined by the requests and by the number of bytes sent between their ends; (5) the onReceive callback of README.md gives the dispatcher exactly the bytes of each transmission up to the first which has a packet dropped.", "quantifier": "all programs (finite executions of them), platforms, sizes of std::size_t, keyrings, action features, single or double buffers, contents of uninitialised memory, worlds, events and transmissions", "why_tests_cant": "programs are unbounded in number and in the length of their executions; tests run a few fixed sequences of calls", "anchors": ["include/upd/buffered_dispatcher.hpp:86-282", "include/upd/dispatcher.hpp:66-176", "include/upd/action.hpp:53-237", "test/snippet/slave1.cpp:21-51", "README.md:144-149"]}
