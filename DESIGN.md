# Design

Object of study: `/repo/include/upd` (StarQTius/Unpadded) and the small Python
layer in `/repo/py` and `/repo/include/upd/python.hpp`.  Everything below is
machine-checked with Coq 8.16.1, standard library only.

## Trusted base

* Coq's kernel (and `vm_compute` for the concrete examples and refutations).
* What `Print Assumptions` lists for each theorem: nothing ("Closed under the
  global context") for every theorem of MANIFEST.json.  No axiom of the
  standard library is used.  Every `Properties*.v` file ends with the
  corresponding `Print Assumptions` commands.
* The faithfulness of the hand-written Gallina model to the C++ text.  Every
  definition cites the file and lines it models.  `Tests.v` runs the assertions
  of the tests of the repository (`test/*.cpp`, `test/py/test.py`) on the model
  with `vm_compute`: all of them hold, as they do of the code.

### What is modelled

| Code | Model file |
| --- | --- |
| `upd.hpp` platform_info, `format.hpp` | `Base.v` (`platform`, `endianess`, `signed_mode`) |
| C++ integer semantics used by the code: promotion, conversion, unary minus, `~`, `<<`, `>>`, `&`, `\|`, object representation, memcpy | `CInt.v` |
| `detail/endianess.hpp`, `detail/signed_representation.hpp` | `IntModel.v` |
| `detail/type_traits/typelist.hpp`, `smallest.hpp`, `signature.hpp` | `TypeLevel.v` |
| `detail/serialization.hpp` (all overloads) | `Serial.v` |
| `tuple.hpp` (tuple, tuple_view, make_tuple, views, assignment, invoke) | `TupleModel.v` |
| `detail/io/*`, `action.hpp`, `key.hpp`, `detail/serialized_message.hpp`, `keyring.hpp`, `dispatcher.hpp` | `Rpc.v` |
| `buffered_dispatcher.hpp` | `Buffered.v` |
| implicit conversions on assignment, `set` and key calls | `Convert.v` |
| `buffered_dispatcher.hpp` with getters, putters and callbacks which throw | `Exceptions.v` |
| `buffered_dispatcher.hpp` with callbacks which call it back | `ReEntrant.v` |
| `is_loaded`, `get` and `write_to` cut at each access, `put` in interrupts | `Interrupts.v` |
| `put` and `call` cut at each access to the output, `is_loaded` and `get` in interrupts | `Sending.v` |
| the caller of `test/snippet/caller4` and a buffered dispatcher on two hosts, any schedule | `Network.v` |
| the callers of `test/snippet/caller4`, `caller5` and the callee of `callee2` on two hosts, any schedule | `Pipeline.v` |
| `signature.hpp`, `require.hpp`, `function_reference.hpp`: which types of callbacks, getters and putters compile | `Callable.v` |
| two devices which both make requests, `reply` (doc/caller.rst.in, test/buffered_dispatcher.cpp) | `Multimaster.v` |
| names of keys, contents of Python modules (python.hpp 34-68, 109-125, 136-139, 160-177) | `PyNames.v` |
| import hook, environment of the compiler (hook.py 17-40, __init__.py 9-16) | `PyImport.v` |
| overload resolution for element types, parameters and results of callbacks (serialization.hpp, require.hpp, tuple.hpp, key.hpp, action.hpp: whether programs compile) | `Elements.v` |
| places of the bases in objects, casts of the CRTP bases (immediate_*.hpp, buffered_dispatcher.hpp 72-73) | `Layout.v` |
| tuples invoked on keys, chains of devices (tuple.hpp 160-185, key.hpp 83-111) | `Relay.v` |
| allocations of actions and dispatchers, failures included (action.hpp 75-239, dispatcher.hpp 28-187) | `Alloc.v` |
| iterators given instead of getters and putters (immediate_process.hpp 19-93, immediate_reader.hpp 15-49, immediate_writer.hpp 17-49, require.hpp 81-91) | `Iterators.v` |
| functors which replace, move and call actions while they run (action.hpp 42-118, 151-239, dispatcher.hpp 118-196) | `Lifetimes.v` |
| tuples, views and structured bindings as variables of a program (tuple.hpp 118-178, 194-399, 431-449) | `Views.v` |
| `Linkage.v` | upd.hpp 15-33, endianess.hpp 40-72, signed_representation.hpp 36-78 in several translation units | which body the linker keeps is arbitrary, per function, type and format |
| `Threads.v` | `put`, `call`, `get`, `is_loaded`, `replace` of buffered_dispatcher.hpp (97, 130-158, 179, 182-217, 260-272) as accesses to members, bytes and actions by two threads | interleaving semantics; an action is one place and so is what callbacks act on; `read_from`, `write_to` left out |
| `Configure.v` | the options `UPD_PLATFORM_ENDIANESS` and `UPD_PLATFORM_SIGNED_MODE` from `option` and `if` to the members of `platform_info` (CMakeLists.txt 6-9, include/CMakeLists.txt 11-21, upd.hpp 15-33) | values made of letters, digits, `_` and `-`; the constants taken for false are those of the documentation of CMake |
| `Cpp.v` | a small interpreter of the C++ used by the integer code: variables as bytes of objects, promotions and usual arithmetic conversions, `memcpy`, `for`, calls | no expression with two side effects, so no order of evaluation; no wider types than `unsigned long long` |
| `Source.v` | endianess.hpp 18-75, signed_representation.hpp 13-81, serialization.hpp 59-68 and 127-136, line by line | the overload selected by `require` or `UPD_REQUIRE` is chosen when the statement is built |
| `Counters.v` | the sums of sizes of typelist.hpp, signature.hpp, tuple.hpp 100-149 and key.hpp 96, the sizes of buffered_dispatcher.hpp 28-36 and the members of lines 280-282, as `std::size_t` | at least as wide as `int`; callbacks do not use the dispatcher |
| `Duplex.v` | buffered_dispatcher.hpp 109-117, 165-169 and 197-203 with getters and putters which call the member functions | callbacks act on the world only; no moves |
| `Classes.v` | interpreter for the C++ of buffered_dispatcher.hpp 97-203, 260-277 and dispatcher.hpp 119-127 | get_index and actions are given by a `linkage`: `modelled` (Rpc.v) or `transcribed` (Program.v); input_size is taken from Rpc.v; a pointer is a buffer and an offset |
| `Methods.v` | these functions, statement by statement | `derived()` is `*this`; reply and replace are not transcribed |
| `Templates.v` | interpreter for the C++ of serialization.hpp 59-180, tuple.hpp, action.hpp, key.hpp, serialized_message.hpp and `get_index` | one instantiation at a time, sizes and offsets being constants; forming a pointer is not checked, using it is; arguments evaluated from left to right |
| `Library.v` | these functions, statement by statement | `invoke` calls the functor on expanded packs; `normalize` is the identity on values |
| `Program.v` | the statements of Methods.v linked to those of Library.v and Source.v | the two interpreters share the world, the getter and the putter; get_action and replace are those of Rpc.v |
| tuples, callbacks, keys and dispatchers with floating point types | `FloatCalls.v` |
| programs of tuples, views and bindings as statements | `TuplePrograms.v` |
| reply as statements | `Replies.v` |
| two masters as statements | `Masters.v` |
| buffered dispatchers with floating point values | `FloatBuffered.v` |
| exceptions leaving the statements of `buffered_dispatcher` | `Throwing.v` |
| `dispatcher::operator()`, `key::operator()`, `key::read_from` with exceptions | `ThrowingCalls.v` |
| the caller and the callee of `Network.v`, statement by statement | `Exchanges.v` |
| the caller which does not wait and the callees of `Pipeline.v`, statement by statement | `Pipelines.v` |
| any program which uses a buffered dispatcher; `slave1.cpp` and `README.md` 144-149 with the statements of the library | `Clients.v` |
| the handlers of `test/snippet/slave1.cpp`, the `onReceive` callback of `README.md` | `Firmware.v` |
| the functors held by actions, as objects with a lifetime | `Functors.v` |
| extensions whose `serialize` is any program of `set` and `get` | `Extension.v` |
| the program of `test/snippet/serialization1` | `Framed.v` |
| `python.hpp`, `py/unpadded/client.py` | `Python.v` |
| Python callbacks which raise (`python.hpp` 93-103) | `PyRaise.v` |
| floating point types through the integer path | `FloatModel.v` |

### Modelling choices

* Bytes are `Z` in `[0,256)`, memory regions are `list Z` accessed by bounds
  checked loads and stores.  Undefined behaviour is a distinct outcome
  (`Fault`): out of bounds access, signed overflow, bad shift, trap
  representation, null dereference, exhausted input.  Preconditions of the
  code therefore appear as hypotheses or as iff characterisations.
* Uninitialised storage is a universally quantified list of garbage bytes.
* A platform is (size of `int`, real endianess, declared endianess, declared
  signed mode).  `CHAR_BIT` = 8, `unsigned long long` is 8 bytes, native signed
  representation is two's complement; out of range conversion to a signed type
  wraps (gcc/clang/C++20 behaviour).
* Types: bool, unsigned w, signed w, arrays, user extended types (recursively).
  A user object is identified with the list of its fields: `serialize` sets
  field i of the view to the i-th component, `unserialize` rebuilds it.  In
  `Extension.v` it is any program which sets and gets the fields.
* Byte sources/destinations and callbacks are arbitrary functions over an
  arbitrary world `X` (generic state), which expresses ordering of effects.
* `std::size_t` is `nat`: sums of sizes are assumed not to wrap (C98 says when they do not, and what happens otherwise).  Counters that
  could underflow (`--m_load_count`) are checked and fault instead in
  `Buffered.v`; in `Exceptions.v`, where the underflow does happen, they wrap.
* Loops whose length is not known beforehand take a fuel argument; running out
  of it is the outcome `OutOfFuel`, which the theorems exclude.
* Callbacks, getters and putters act on the world `X` and not on the dispatcher
  which calls them.  Except in `ReEntrant.v`, where callbacks are programs which
  may also call every member function but `reply` and the moves, and in
  `Duplex.v`, where getters and putters do.
* `TArr` stands for `T[n]` and `std::array<T, n>`.  `std::array<T, 0>` is an empty
  class, of size one, as in the GCC library; the conditions of the theorems
  (`wf_ty`) exclude it and `C10_empty_refuted` shows why.  Assignment between tuples of
  different types does not compile when the destination holds plain arrays
  (`get` returns a `std::array`): there, `TArr` is `std::array` only.
* `reply()` without anything to reply sends an uninitialised local array: its
  bytes are `p_indet`.
* pybind11: conversions from Python integers are range checked and raise,
  `bytes` are copied, Python callables are called synchronously.
* Templates, SFINAE and overload selection are resolved by hand; the choice is
  stated in the comment of the definition.

### Not modelled

Lifetimes other than those of the functors held by actions (`Functors.v`) and
of the memory they are in (`Alloc.v`), exceptions
other than in `Exceptions.v`, `Alloc.v`, `Throwing.v` and `ThrowingCalls.v`, `volatile`, threads other than in `Threads.v`, interrupts
other than in `Interrupts.v` and `Sending.v` (in each of which one side is not interrupted), two-phase
name lookup other than in `Serial.v` and `Elements.v`, overload resolution other than in
`Callable.v` and `Elements.v`, the SFINAE error messages, the CMake code other than in
`Configure.v` (in include/CMakeLists.txt the install interface names `CMAKE_INSTALL_INCLUDEDIRS`, a
variable which does not exist), the code of the documentation and packages,
pybind11, cppimport and `__cxa_demangle` themselves (PyNames.v says how the latter is taken to
write names), `detail::call(src,
ftor)` (action.hpp 44-50: refers to an undefined macro, never instantiated).

## Specification side

`Spec.v` is independent of the model: base-256 digits (`z / 256^i mod 256`),
textbook code words of the four signed representations, encoding of a value of
a type as a list of bytes by structural recursion, and later a packet parser.
Models are proved equal to it; no property is stated through model helpers
other than the API function under test.

## Plan per property

* C01, C02 — `to_endianess`/`from_endianess` loops by induction on the byte
  count with an accumulator invariant; native path via object representation.
* C03, C04, C05, C06, C07 — case analysis on mode and path; `lia` over
  `Z.modulo`; C05/C06 are false of the code at the minimum of wide types on the
  portable path: `_refuted` theorem + exact characterisation.
* C08, C09 — corollaries of C02/C04/C06; C09 false on big-endian hosts taking
  exactly one of the two native shortcuts: `_refuted` + iff.
* C10, C11, C12 — structural induction over types (custom nested induction
  principle); C12 holds iff sizeof = serialized size: `_refuted` + iff.
* C13–C23 — frame lemmas on stores at disjoint offsets; histories by induction;
  C21: assignment from a view of the same type rebinds the view (the implicit
  copy or move assignment is selected) and variables of another type are
  rejected, and `tuple<E, S>` (the specialisation for no element) neither has
  views nor the assignment from other types: `_refuted`; C22: iff sizes agree.
* C24–C34 — equality of each operation with a specification program over the
  generic world.
* C35–C48 — refinement: representation invariant between the concrete buffered
  dispatcher and an abstract packet machine, preserved by every operation, then
  induction on histories.  C37, C44 false in general: `_refuted` + conditional.
* C49–C51 — functional models of the bindings on top of the C++ model.  Client
  coroutine: awaited function as an arbitrary state transformer.
* C52 — floating point numbers from `Coq.Floats.SpecFloat` (sign, mantissa,
  exponent), the cast chain of the signed path on them: refuted.
* C53 — equality iff sizeof = serialized size.
* C54–C56 — a second model of the buffered dispatcher whose getters, putters
  and callbacks may throw, proved equal to the first one when they do not;
  C56 false: the dispatcher is stuck, `_refuted` + what is kept.
* C57, C58 — conversions stated as the unique value of the type congruent to
  the given one; assignment as in C21; hooks through C29.
* C59 — C51 for the replacement, the model of C56 for the exception, and the
  invariant of the stuck dispatcher, which `replace` keeps.
* C60 — refinement again, to the packet machine extended with what a running
  callback sees; the invariant of the stuck dispatcher holds during the call.
* C61 — the accesses of `get` and `write_to` interleaved with `put`; bytes which
  do not complete a request leave the output alone.  False otherwise:
  `_refuted`.
* C62, C63 — the programs of the documentation, on top of the refinement to the
  packet machine.  The world is what the callbacks change; the wire is a list.
  Arduino's `Wire` is an assumption, stated in `Firmware.v`.
* C64 — induction on the program; the invariant is the memory as a function of
  the values given so far.
* C65 — the tuple theorems on the types of the header, fields and checksum.
* C66 — programs as lists of operations on variables and actions; an invariant
  ties the memory to what can be read off the program text.
* C67 — simulation of the uninterrupted call by the interrupted one: what was
  sent is a prefix of what the output buffer holds.  False between the two
  assignments of `call`: `_refuted`.
* C68 — an invariant of the whole system with the number of turns which remain;
  every effective turn decreases it by one, and some turn is effective as long as
  it is not zero.
* C69 — as C68, with the list of the responses expected; proved for any callee
  which serves packets one by one, then both dispatchers are shown to.
* C70: the signature deduced for a type, in C++11 and C++17: false of
  `noexcept` callbacks in C++17.
* C71: the getters and putters taken by each function.
* C72: the callbacks taken by keys, dispatchers, actions and `replace`.
* C73: two devices which both initiate requests and answer with `reply`:
  every schedule, exact number of steps, fairness.
* C74: declarative semantics of the regular expressions, soundness and
  completeness of the backtracking matcher, greedy choice of the last match.
* C75: the initialisation of a module as a list of items, invariants on names
  and registered types, induction.
* C76: scripts (interaction trees) for the functions of cppimport; the guard
  makes the depth of nesting at most two; histories by induction.
* C77: case analysis; the unexpected cases are `_refuted`.
* C78: types as trees, overload resolution by filtering the visible candidates,
  induction on types.
* C79: case analysis on the way of passing, on top of C78.
* C80: the layout algorithm of the Itanium ABI (empty bases, conflicts, primary
  base, tail padding) as a fold; invariants on the data size and on the empty
  classes.
* C81: one link is C31 with a keyring in which the name is found (no
  duplicates); induction on the links.
* C82: the model records what the allocator sees; the blocks outstanding are
  computed from the record and shown to be, up to order, those the objects hold.
* C83: an iterator is what `*it++` does to its position and to its medium; the
  copy made by the call is a field of the world, hidden from the callbacks.
* C84: the specification is an evaluation in a world without destruction, which
  records uses and destructions; the model is proved to agree with it as long as no
  use follows a destruction (mutual induction on evaluations).
* C85: the bytes of each tuple in scope hold the list of values of the specification
  (invariant of the program); a view is undefined exactly when its tuple is out of scope.
* C86: from any reached state, the bytes 255 end the request in progress (its length is
  bounded), then form indexes which designate nothing.
* C87: compatible formats give the same bytes; otherwise 1 or -1 inside of a value otherwise zero is
  read as another number.
* C88: the packet depends on the keyring through the size of the index only.
* C89: the encoding of a value is the encoding of the list of its integers; if the integers do not
  agree, bytes which are all 1, an extreme value or -1 shows it.
* C90: an invariant of the buffered dispatcher (the bytes missing fit in the buffer, the bytes kept are
  bytes) preserved by every operation; conversely the packet which cannot be read is sent.
* C91: simulation by a machine which keeps the whole response and the number of bytes sent; the bytes
  of the request are written over the response.
* C92: arbitrary bytes in place of those of a packet; the machine of C35 examines prefixes.
* C93: C87, C88 and C89 together, for whole keyrings, with the responses; the converse by callbacks which record and echo.
* C94: two functions of different translation units behave as those of one with the macro of each; then as C04 and C09, by induction on types.
* C95: a call alone performs the accesses of its resources; accesses which do not clash commute, so that races are clashes of the solo traces and interleavings without clashes are serial.
* C96: with macros which lie a native path behaves as with true macros and the format of the host, so the facts for true macros apply; that the others fail is shown by three integers, computed for each combination.
* C97: each loop is an induction with the state written out; each expression is computed by a lemma on conversions; the result is compared with the functions of `IntModel.v`, fault by fault.
* C98: the dispatcher with wrapping counters and the one with natural numbers are run side by side; the lengths of the buffers bound every counter.
* C99: each turn of the loops is a step of the refinement of C41 and C42; the number of turns is bounded by what is missing of the request.
* C100: each member function is run symbolically; the lambdas are related to the getters and putters of Buffered.v by an embedding of frames in states; the loops by induction on the number of turns; histories through C98.
* C101: `spent q s n c` (a program which ends normally has made n accesses and c calls) is compositional; the counters of a reached state are related to the verdict on the bytes received as for C95.
* C102: `reader`/`writer` (a function body called with an iterator reads or writes as a given function says, and gives back the memory of its caller) are compositional; induction on the type; one lemma for range-based loops.
* C103: linkages which agree on the actions of the dispatcher run alike (mutual induction on statements, invariant: the actions stay within those described); then C97, C100, C102 and the refinements of C35, C42 compose.
* C104: both dispatchers are shown equal to one description of a request (index, callback, arguments, call, response); induction on the number of requests; on streams, that what remains of the input are bytes is invariant.
* C105: floating point types are lowered to signed integers of the same size and bits; reading, writing, tuples, calls, keys and dispatch commute with the lowering (induction on types); then C24 and C31.
* C106: each operation of Views.v is compiled to statements of Templates.v; a relation between variables and storages on one side and the state of Views.v on the other is kept by every statement (the lemmas of C102 for get, set, lay); then C85.
* C107: the condition of reply as a statement, write_to in a world extended with the local array, the request by C102_key_write; an invariant relates the members to the abstract machine of C42 and a flag saying that no byte of the response was taken.
* C108: simulation of C73 turn by turn; the statements of put, is_loaded and reply by C100, C103 and C107, those of requests by C102; fuel is the maximum over the turns.
* C109: every operation commutes with replacing floating point types by unsigned types of their bits; sessions then follow from the machine of C36.
* C110: the executor of C99 with a second way to end, related to Exceptions.v operation by operation; the invariant is the one of C98 without a positive m_load_count.
* C111: the executor of C110 on the statements of dispatcher.hpp 119-127; the requests of C54 for the outcomes.
* C112: turn by turn, the statements do what Network.v does; the invariant of C68 gives a state of the dispatcher which is reached, for which C103 applies.
* C113: a simulation for any callee, then the two callees: C103 for the plain dispatcher, the steps of C107 and C108 for the buffered one.
* C114: one simulation for any program over the steps of C103 and C107; the programs of C62 and C63 are instances.

Properties that turn out false of the code are reported as `partial`, with a
`_refuted` theorem giving a concrete witness and a `_partial` theorem giving the
strongest condition under which the property holds.
