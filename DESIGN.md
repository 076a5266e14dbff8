# Design of the monoruby verification

Source under study: `/repo` (read as text only, never built or run).
Model and proofs: Coq 8.16.1, `rocq/theories`, logical prefix `Verif`.

## Method

* Every modelled Rust/Ruby function becomes a total computable Gallina function
  (fuel where the code loops on data; panics and Ruby exceptions are explicit values).
  The comment above each definition cites file and lines in `/repo` and lists simplifications.
* Files are named by role:
  `XxxModel.v` (definitions that follow the code), `XxxSpec.v` (independent statement of what
  the user expects, no use of the model's helpers), `XxxProofs.v` (lemmas),
  `XxxProps.v` (only the final theorems, each closed by `exact lemma.`, followed by
  `Print Assumptions`, plus `Example`s that instantiate hypotheses).
* A property that the code violates gets a theorem `..._refuted` (a concrete witness, with the
  general statement negated) plus, where useful, the strongest true restriction.
* Machine words are `Z` or `N` with explicit `mod 2^64`; unbounded Ruby integers are `Z`.
* Operating-system, user-code and scheduler choices are universally quantified lists of events
  ("oracles"), never fixed.

## Plan per property (written before the proofs)

| id | model | proof idea |
|----|-------|-----------|
| C01 | value words as Z below 2^64; encode/decode functions of `Immediate` | case analysis on tags with div/mod arithmetic |
| C02 | flonum encode/decode on bit patterns | bit rotation as div/mod; refute at 0x3000000000000000, prove for every other pattern |
| C03 | `as_bool` on words | bit lemma on `land` |
| C04-C07 | values `Fix z | Big z`; add/sub/mul/div/mod/shift/pow with their overflow branches | algebra on Z; exactness and canonical-form lemmas; refutations for the truncating branches of `**` |
| C08 | floats as dyadics; `i64 as f64` as round-to-nearest-even on Z | refute with 2^53+1; prove exact for bignum branch and for small magnitudes |
| C09 | `IndexMapCore` as entries vector + hash table of indices (abstract probe order) | refinement to association list, invariant by induction on histories |
| C10-C11 | Hash content inline/boxed + iteration depth bits | refinement on top of C09; depth counter analysis |
| C12-C13 | merge sort with an arbitrary stateful comparator | permutation by induction; sortedness/stability under strict weak order |
| C14 | recursive matcher following the code | inductive language definition, soundness and completeness |
| C15 | limited_rand / shuffle over an abstract 32-bit stream; MT as stream generator | range proof by mask argument; permutation of Fisher-Yates |
| C16-C17 | num/den pairs with gcd normalisation | Z gcd lemmas; refutations for rounding branches |
| C18 | table + reverse map | invariant over histories |
| C19-C22 | heap graph with mark/old/remembered sets, ages, free list, pages | tri-colour style invariants for minor/major, allocator invariant |
| C23-C25 | small-step interleaving of Ruby-level Mutex/CV/Queue code at the poll points | inductive invariants; refutations by explicit traces |
| C26-C27 | scheduler state machine (ready, sleepers, io_waiters, per-thread state) | invariants, refutations by traces |
| C28-C30 | atomic word with byte lanes; signal bitmap; timer automaton | trace invariants; refutations by traces |
| C31 | workers, result table, pipe, waiters | safety by invariant; liveness refuted by trace |
| C32-C33 | buffer automata with adversarial kernel | induction on event lists |
| C34-C37 | byte-list encoders/decoders | round-trip by induction; refutations by witness |
| C38-C39, C57 | marshal writer and reader over a heap graph with link tables | simulation: reader's tables mirror writer's; refutations by witness |
| C40, C58, C59 | heap of class nodes and iclasses | invariant over all histories; the walk = `weave` on lists; refutations by witness |
| C41, C60, C61 | method tables, global cache with a version counter, call sites, super | list lemmas for the walk; version-distance invariant for the caches; refutations by witness |
| C42 | register file, the driver that emits code, machine semantics of the code, side exits | invariant: every cached register holds its slot's value and the home is current unless dirty; induction over the block; refutations by witness |
| C62-C65 | Integer methods on small/big representation | equational, against Z and testbit specs; refutations by witness |
| C66 | digit loops and text parsers over scalar lists | grammar as an inductive relation; round trips; refutations by witness |
| C67, C68 | sequences over Integers and SpecFloat doubles; slices with unchecked reads | counting lemmas, equational; index bounds for all inputs; refutations by witness |
| C69, C70 | SpecFloat doubles as multiples of 2^-1074 | exactness of rounding on short numbers; Z inequalities; refutations by witness |
| C71-C74 | frames as cell lists, parameter records, call-site tables, stores of compiled code | refine every path to one relational call specification shown functional; refutations by witness |
| C75 | the four-entry cache, version word and guard of a compiled send, on the worlds of C41/C60 and the frames of C71 | invariant over histories (entries are right while the version word matches); refutations by witness |
| C76, C77 | the native parser and generator as functions on bytes; RFC 8259 as mutually inductive relations | induction on derivations; round trip through the grammar; inversion for soundness; refutations by witness |
| C78 | State#generate, its short cut and to_json with all options | induction on values; the texts are in the grammar of C77 |
| C79, C80 | worlds of name tables, objects, caches, compiled units and frames; one list of variables per object | two invariants (layout in every history, names of set slots), simulation step by step |
| C81 | dup and clone over the same worlds | equality of reads after any history; refutations by witness |
| C82 | statement lists with an annotation at every call; the compiler's flow facts; units, version words, frames; an interpreter on the same state | the compiler's output satisfies an inductive typing; forward and backward simulation by induction on fuel; refutations by witness |
| C83 | the same | invariant of the units, with ownership of version words by frames |
| C84 | statement trees, the generator with its stacks of loops, ensure bodies and retry labels, a machine with exception tables read off the tree and the stack of deferred unwindings; ends passed outwards as the specification | simulation by induction on the number of statements of a whole exit, including the ensure bodies it will run; a flag in the specification marks the refuted situations |
| C85 | the same | the flag stays up in programs satisfying a condition on their text |
| C86 | Arrays as lists, indices and lengths as Z with Rust's casts; element-wise descriptions as the specification | list arithmetic; the heap of nested arrays by a bound on its addresses |
| C87 | the same, with panics and the frozen flag | the same |
| C88 | loops over an array that an arbitrary callback may replace; slices held across a callback have an identity | invariants on positions; agreement for callbacks that leave the array alone |
| C89 | the object's words (capacity or inline length, heap length, buffers) and the emitted code | agreement with C86/C87's model for every layout |
| C90 | strings with encoding and cached classification, 22 operations on a store of strings | safety for all histories with ASCII class names; exactness for histories without the refuted operations |
| C91 | character walk, lengths, index and slice arithmetic with wrap-around | against an inductive definition of characters per encoding |
| C92 | compatibility, append, interpolation, compiled append, comparison | against Ruby's rule on contents |
| C93 | string objects, buffers with addresses, views into a root, collector | simulation by strings as values, for all histories without writes to frozen strings |
| C94 | lookup of constants, inline caches with a global version | agreement with lookup without caches, for all histories whose unannounced changes are not cached |
| C95 | compiled values, guards, name epochs and re-validation | the same for runs of compiled code |
| C96 | the walk of defined? | equivalence with reading |
| C97 | generation of bytecode for expressions, assignments and control flow; execution of the code | simulation of an evaluator from left to right, for all programs that meet a condition on their text |
| C98 | the labels of that code | induction on the expression |
| C99 | local frames, their move to the heap, block handlers, Procs, lambdas, yield, block parameters | simulation of environments that live on, for all sequences of operations |
| C100 | Bindings; the block parameter as an object | the same, where no block is left behind; witnesses elsewhere |
| C101 | fibers: resume, yield, raise, kill, their ends | simulation of Ruby's links between fibers, for all histories without transfer |
| C102 | fibers with transfer | the same for transfers that leave no stale target; witnesses elsewhere |
| C103 | sprintf of integers | digits, complements, flags, width and precision against Ruby's rules for all integers |
| C104 | sprintf: reading directives | formats written from directives are read back, arguments taken as Ruby does, for all conversions |
| C105 | sprintf of text | against characters, for ASCII; witness for bytes |
| C106 | sprintf %a | the text read as a number against the float, exactly or within half a unit |
| C107 | String#tr, tr_s | a set as a list of characters and ranges; the last place in it; marks for translated characters |
| C108 | String#count, delete, squeeze | membership in all sets |
| C109 | String#succ | a number in mixed alphabets, plus one |
| C110 | Enumerator#next, peek, rewind, feed | a cursor over what the producer does after the answers it got |
| C111 | Time.gm, Time.local | the calendar as a rule for the next second |
| C112 | Time#+, -, <=>, hash, round, Time.at | instants as whole nanoseconds |
| C113 | Marshal of Time | the same time; CRuby's eight bytes |
| C114 | utc offsets, strftime %z %N %L, xmlschema, Time.new(text) | the five offset forms, letters, decimals; write then read |
| C115 | IO::Buffer slices, reads, writes | the place of each byte |
| C116 | IO::Buffer locks, for, free, transfer, resize | what stays the same in all histories |
| C117 | IO::Buffer get_value, set_value, values, masks, <=> | numbers to base 256, two's complement |
| C118 | Range cover?, overlap? | the set of rational numbers between the ends |
| C119 | Range each, reverse_each, step, first, last, size, count, map, min, max | the integers of that set, in order |
| C120 | Range bsearch | least element, zero of a sign function, order of Floats |
| C121 | Array combination, repeated_combination | the set of increasing rows, lexicographic order, its size |
| C122 | Array permutation, repeated_permutation | the set of rows without repetition, lexicographic order, its size |
| C123 | Array product, bsearch | cartesian product; first true, some zero |
| C124 | Enumerable slices | where a slice may begin and end; windows |
| C125 | Enumerable selection, zip, sum | filters, first of the least, rows, compensated sum |
| C126 | Comparable | the sign of <=> |
| C127 | Set operations | membership |
| C128 | Set comparisons and hash | inclusion |
| C129 | Set in-place changes, dup, divide, reset | filters, membership |
| C130 | Enumerator::Lazy, elements | the eager methods one after the other |
| C131 | Enumerator::Lazy, elements asked of the source | least part of the source |
| C132 | Enumerator::Lazy, size | number of elements |
| C133 | Monitor, interleaved calls | Ruby's monitor as a partial state machine |
| C134 | Struct: new | Ruby's choice between positions and keywords |
| C135 | Struct: [], []=, to_a, to_h, values_at | the list of slots |
| C136 | Data: new, with, to_h, deconstruct_keys | keywords that determine the members |
| C137 | Hash: transform_keys(!), transform_values, slice, except, compact(!), rehash | finite maps with an order |
| C138 | Hash: min_by | the first least entry |
| C139 | Hash: any?, all?, count, flat_map, min_by with blocks of one and two parameters | Enumerable over pairs |
| C140 | Array: map, reverse_each, rindex, drop_while with blocks that change the Array | CRuby's loops |
| C141 | Array: values_at, fetch_values, assoc, rassoc, tally | positions of Ranges, first that fits, counts |
| C142 | Pathname: cleanpath, +, parent, join, relative_path_from | walks in a tree without links, with links for cleanpath(true) |
| C143 | Numeric: div, modulo, divmod, remainder, step | division with a rest, arithmetic progressions |
| C144 | String: insert, concat, prepend, chop, delete_suffix, partition, rpartition | lists of characters, first and last occurrence |
| C145 | Random::Formatter random_number | the same number of draws for each answer |
| C146 | File.dirname on lists of characters | the forms of a path; what is left of each |
| C43 | i64 registers, instruction sequences of the fast paths, `jo` as overflow test | compare with the C04-C06 model; refute Div(min,-1) and x86_64 `>>` |

## Trusted base

* Coq 8.16.1 kernel (and `vm_compute`).
* For each theorem, what `Print Assumptions` prints (see MANIFEST notes and the build log).
* The hand translation from Rust/Ruby to Gallina, documented definition by definition.

## Modelled code and disagreements found, by module

### Value words (ValueModel.v) - C01-C03
Modelled: `value.rs`/`immediate` tagging, flonum rotation, heap fallback, truthiness test.
Not modelled: heap object layout beyond "8-aligned non-zero address".
Disagreement: C02 false for the single pattern 0x3000000000000000.

### Integers (IntModel.v, CmpModel.v, FixAsmModel.v) - C04-C08, C43
Modelled: `Value::integer`/`bigint`, `RealKind` operators, `div/rem/shl/shr/pow` helpers,
`bigint_cmp_float`, the Integer/Float arms of the comparison operators, the x86_64/aarch64
instruction sequences for fixnum operands, compile-time folding.
Trusted: num-bigint's `+ - * / % << >> cmp` are the exact operations on Z (`/`,`%` truncating,
`>>` flooring); IEEE comparison of finite doubles is exact comparison; `as f64` rounds to
nearest even. Not modelled: coerce protocol, redefinition of basic operators, Float results.
Disagreements: C06 (receiver > 2^32 bits), C07 (0/1/-1 with big exponents refused; big base with
exponent <= -2^32 wrong), C08 (small Integers above 2^53 compared through a lossy conversion),
C43 (`-2**62 / -1` and `1 >> -62` in compiled code).


### Ordered map (MapModel.v) - C09
Modelled: `rubymap` `core.rs` - `IndexMapCore` with its linear (table-less) mode, index table,
entries vector, insert/replace/get, shift and swap removal by key and by index, pop, truncate, drain,
split_off, retain, sort/reverse rebuild, move_index, shift_insert, tombstone removal, lazy shift, compaction.
hashbrown's raw table is a list of indices with an arbitrary insertion position, arbitrary growth
points and an arbitrary visibility function bounded below by "equal full hash".
Not modelled: `shrink_to`, `clone_from`, `Entry` API beyond what Hash/Set use, `eql?`/`hash` user
methods that raise or mutate the map while it is searched, capacity overflow.

### Hash object (HashModel.v) - C10, C11
Modelled: `value/rvalue/hash.rs` - inline (up to three pairs) and boxed forms, promotion, `get`,
`contains_key`, `insert`, `remove`, `clear`, `shift`, defaults, `compare_by_identity`, `clone_inner`,
`replace_inner`, the iteration depth (two header bits inline, a u32 when boxed), tombstones and
compaction; the cursor loop of `builtins/hash.rb` `each`. The boxed form is built on the C09 model.
Not modelled: the prehashed probes (same digest, same equality), user `hash`/`eql?` methods with side
effects, the ruby2_keywords bit, write barriers.
Disagreements: `Hash#replace` never checks for a running iteration and leaves the depth unbalanced
(C11_stuck_refuted); a fourth iteration over an inline hash is not counted, so it is unprotected once
the three counted ones end (C11_unprotected_refuted; needs external enumerators or fibers).

### Sorting (SortModel.v) - C12, C13, C45
Modelled: all of executor/op/sort.rs (merge_scratch_len, merge_sort, insertion sort, run detection and
reversal, MIN_RUN extension, collapse, both merge directions, the two drop guards) and sort_inner's scratch
allocation. The array and the scratch buffer are lists with bounds-checked loads, stores and copies; an
access outside is `Bad` and excluded by the theorems, as is running out of loop fuel. The comparator is any
function of a state, the current memory and the two elements, and may raise.
Not modelled: cmpint (how a block result becomes an ordering), sort_by / sort_by! / min / max (Rust standard
library sort), a block that resizes the receiver of sort! (the loop keeps the old slice: memory-unsafe in the
source, outside the model).
Disagreement found: sort_inner roots the merge buffer, but insert_head keeps the moved element in a Rust
local while the block runs. `ary.sort! { |a, b| r = a <=> b; b = nil; GC.start; r }` can free it (C45).

### Key digest and eql? (KeyModel.v) - C44
Modelled: Value::ruby_hash and Value::eql (value.rs:347-552) with the Array, Range and Hash cases. A digest is
the sequence of items fed to the hasher. Not modelled: cycles (recursion guards), user-defined eql?/hash,
Complex, Struct, Time, Rational keys (dispatched to methods).
Disagreement found: the digest of a Hash key walks the pairs in insertion order while eql? ignores the order,
so `h = { {a: 1, b: 2} => :x }; h[{b: 2, a: 1}]` is nil although the keys are eql?. (The Ruby-visible
Hash#hash is order independent; the internal digest does not use it.)

### File.fnmatch (FnModel.v) - C14
Modelled: all of builtins/fnmatch.rs: fnmatch, path-mode segments with `**/`, the greedy segment loop with its
single backtrack point, brackets, escapes, case folding, brace expansion. Names and patterns are lists of code
points; case folding is an arbitrary function on code points. The specification reads a pattern as tokens and
gives its language inductively; brace patterns are trees.
Simplification: the segment loop's indices are list suffixes plus an "at index 0" flag.
Disagreements with CRuby: a stray `}` before a group disables expansion (C14_stray_brace_refuted);
`File.fnmatch("*.a", ".a")` is true (C14_leading_period_refuted).

### Random numbers, shuffle, sample (RngModel.v) - C15, C46, C47
Modelled: globals/prng.rs: the twister (init_genrand, init_by_array, twist, temper), the seed-to-key digits,
`limited_rand`/`limited_big_rand` (mask and rejection), `genrand_res53`, `bytes`; builtins/random.rs (an instance keeps
the seed and the number of words drawn and replays), Kernel#rand and Random#rand on ranges with i64 wrap-around (release
profile), Float ranges with Coq's SpecFloat (axiom free); Array#shuffle!, #sample with all four strategies (k = 1,
lifted indices, sparse map, partial shuffle), draws being an arbitrary stateful function that may also change the array.
Not modelled: seeding from the OS, Random.rand/SecureRandom, Float arguments of rand, bignum range ends.
The rejection loop has fuel; statements say "whenever a value is returned".
Disagreements found: see C15_nested_refuted, C46_*_refuted, C47_shrinking_refuted. Also (not a theorem): Random#rand(1.0..2.0)
uses the half-open mapping, so the closed end is never drawn, unlike CRuby.

### Rational (RatModel.v) - C16, C17, C48
Modelled: rational.rs except to_f/to_s/from_f64 (constructor and normalisation, arithmetic, cmp, eq, ndigits_sufficient,
floor, ceil, truncate, round, find_simplest), pow_by_integer and the Integer arms of ==, != and <=> of
builtins/numeric/rational.rs, Kernel#Rational on Integers, Rational#rationalize of builtins/rational.rb with a Rational
tolerance. BigInt is Z; `as u32` and i64 negation wrap; BigInt's memory limits are ignored. Specifications over Coq's Q.
Not modelled: mixed Float arithmetic, to_f, string parsing, coerce dispatch, Float#rationalize without an argument.
Disagreements found: C16_*_refuted, C17_*_refuted, C48_float_rationalize_refuted.

### Interning (IdModel.v, Utf8Model.v) - C18
Modelled: all of IdentifierTable (id_table.rs:440-623) including the 95 reserved names, the u32 id arithmetic, the
shared-then-exclusive locking of IdentId::get_id, and the entry points String#to_sym, symbol literals, String arguments
(try_symbol_or_string), Marshal's intern_symbol_bytes, Symbol#to_s/name, all_symbols. from_utf8 and from_utf8_lossy are
written out from the library's tables and proved against RFC 3629 (utf8_ok_iff). HashMaps are association lists.
Not modelled: Symbol#<=> and inspect; CodeRange caching.
Disagreements found: the six C18_*_refuted theorems (five phantom Symbols named "" in all_symbols; "\xff".to_sym equals
"\xff".b.to_sym; define_method("é".b) does not define the method named "é".b.to_sym; Marshal.load of an ASCII Symbol with an
encoding wrapper; attr_accessor on two binary Symbols shares one variable).

### Garbage collector and cell allocator (GcModel.v) - C19, C20, C21, C22, C49
Modelled: alloc.rs: Allocator::alloc with free list, bump pointer, page reuse and new pages; the compiled allocation
sequence; gc (kind decision, remembered set, marking with the recursion limit and the explicit queue, ageing and
promotion, arming, old bitmaps, page salvage, sweep), the word loop of sweep_bits, get_page's mask; rvalue.rs:
write_barrier, age_and_check_promote, is_promotable as a flag. A mark of a dead cell is the source's abort (`None`).
Mutator histories: allocation, root changes, barriered stores, dropping references, unbarriered stores into kinds that
are never promoted, GC.config, collections with or without a pending GC.start; `step_replace` (only in `history true`) is
String#replace.
Assumed, checked by reading only: the root set (stack scan, globals, codegen constants) covers what the program can reach;
mark_children and young_child_exists visit the same children on promotable kinds; every other store into a promotable kind
calls the barrier (arrays, hashes, ivars, structs, swap_kind were read). Not modelled: finalizers/weak references, GC.compact,
malloc-pressure triggers (they only choose when a collection happens, and histories allow it anywhere).
Disagreements found: C19_replace_refuted, C19_replace_aborts_refuted, C21_replace_refuted (builtins/string.rs:7331-7341, also
argf.rs:597-601 and encode! through replace_with_inner); C22_exhausted_refuted; C49_stat_refuted.

### Thread scheduler (SchedModel.v) - C26, C27, C50
Modelled: scheduler.rs: thread states, ready/sleepers/io_waiters, spawn, wakeup and wakeup_permit, interrupt with
handle_interrupt masks and deliverable_index, sleep, pass (green and main), join (each turn of its loop is one step),
wait_fd/select, wake_due_sleepers, prune/poll_io_waiters, scheduler_loop, dispatch, finalize_common with exception
forwarding, terminate_all, fork_child_reset_threads. `resume_exec.unwrap()` on None is the control state `Panic`.
Abstracted: what a thread computes between scheduler calls; which descriptors poll(2) reports (arbitrary per step); time is
an integer clock that any step may advance; `threads` (the list for Thread.list) and stack handling are left out; a
time-slice switch is a `LPass`. The set of delivered interrupts is modelled but what the exception does is not.
Disagreements found: C26_permit_refuted, C26_stale_limit_refuted, C27_queued_twice_refuted, C27_panic_refuted,
C27_fork_refuted, C50_inherit_refuted. Common root of three of them: wait_fd/select push a sleepers entry and never remove it when the thread
is woken by the descriptor (wake_due_sleepers prunes it only if the thread is not parked at the next scan).

### Mutex (MutexModel.v) - C23, C24, C51, C52
Modelled: the Ruby source of Mutex (builtins/thread.rb:404-526): try_lock, lock, unlock, sleep; synchronize is Lock ... Unlock.
One step is the code between two safepoints (Ruby method entry, loop back edge, park); natively implemented methods have no
safepoint. Which thread runs is arbitrary; kill/raise (unwinding through the ensure clauses), wake-ups with and without
permit, thread end, fork and the report written inside Thread.stop are labels. `holds` is a ghost flag.
Not modelled: Fibers (owner_fiber is only read by owned?), time (a time-out is a Wakeup), Ruby code that reopens Mutex.
Disagreements found: C23_polling_alive_refuted (a Thread subclass defining alive? in Ruby), C24_killed_waiter_refuted,
C24_owner_dies_refuted (a thread that ends does not wake the waiters of its locks), C24_report_race_refuted (a permit sent to
a thread in IoWaiting is dropped by scheduler.rs:441-467), C51_release_refuted (unlock polls at its entry inside the ensure).

### Queue (QueueModel.v) - C25, C53, C54
Modelled: the Ruby source of Queue and SizedQueue (builtins/thread.rb:528-764: push, pop, close, clear, max=) and of
ConditionVariable (766-818: wait, signal, broadcast), running on MutexModel's Mutex, with the same steps, wake-ups and
interrupts. `pushed`, `gone`, `got` are ghost lists: what was put in, what was taken out by whom, what pop returned.
Abstracted: items are numbers; a time-out may happen at any turn of the loop; a method raising at its entry (frozen queue,
bad arguments) is left out; length/num_waiting/empty? are plain reads.
C53 is the safety form of liveness: as long as somebody waits for something that is there, somebody can run.
Disagreements found: C25_interrupted_pop_refuted, C25_interrupted_sized_pop_refuted (the item is taken before the last
safepoints of pop), C53_signalled_killed_refuted (an interrupted waiter does not pass its signal on),
C53_producer_killed_refuted (push adds the item before the safepoint of signal).

### Poll word and signals (PollModel.v) - C28, C29
Modelled: poll_flag.rs lanes, signal_table.rs signal_handler/take/lowest, execute_gc (executor.rs:4815-4945) one atomic
operation per step with any number of nested or interleaved polls. `account` in PollSpec.v keeps what is still owed.
A GC request raised while a collection runs counts as answered by it (ack_gc_request clears the lane at its end).
Abstracted: signal_delivery_ok, whether a handler raises, GC.stress are choices at each step; what pass does.
Not modelled: several interpreters in one process, gc-stress builds, MONORUBY_PREEMPT_STRESS, the watchdog.
Disagreements found: C28_tick_erased_refuted, C29_two_signals_refuted (documented in the source as acceptable).

### Preemption timer (TimerModel.v) - C30
Modelled: preempt.rs on_thread_count and timer_loop, the callers in spawn and finalize_common, and fork (the child keeps the
JoinHandle of a thread it does not have; is_finished reads the packet's reference count, which never drops).
Disagreements found: C30_race_refuted, C30_fork_refuted.

### Native pool (PoolModel.v) - C31
Modelled: native_pool.rs submit, try_take, discard, drain, run_blocking; the scheduler's poll before each dispatch; interrupts.
Abstracted: which ready thread runs next (the trace of the refutation follows the real order: main first, then the ready
queue); what the operation does; poll(2) sees one consistent state of the pipe for all waiters.
Disagreements found: C31_lost_wakeup_refuted.

### Write buffer (WbufModel.v) - C32
Modelled: io.rs/io/buf.rs write side: buffered and direct writes, flush, sync, close, write_nonblock, dropping the object; the
kernel may accept any part of a write, or answer EINTR, EAGAIN or an error. `accepted` and `out` are what callers were
told and what the kernel took.
Not modelled: encodings, several IOs on one descriptor, writes from other processes.
Disagreements found: C32_nonblock_refuted, C32_dropped_refuted (FileDescriptor::drop, io.rs:456).

### Read buffer (RbufModel.v) - C33, C55
Modelled: IoReader (io/buf.rs:92-213), read_step/read_upto/read_all/read_until, read_impl, sysread, read_nonblock, readpartial,
gets with and without separator and limit, eof?, pos, seek, ungetbyte, write on the same descriptor (pending writes go out
whole before a read). Events give the kernel's answers and the moments a signal is pending; too short a list is no result.
Not modelled: paragraph mode, completion of a character cut by a limit, encodings, files changed by others, append mode.
Disagreements found: C33_seek_stale_refuted, C33_gets_interrupted_refuted, C33_nonblock_order_refuted, C33_stdin_refuted,
C33_stdin_eof_refuted, C55_read_ahead_refuted.

### pack and unpack (PackModel.v) - C34-C37, C56
Modelled: string/pack.rs whole: the template parser with modifiers, counts and comments, every directive of pack except f, p
and P, every directive of unpack (the float widening and what a pointer points to are parameters), the once parameter of
unpack1; coerce_to_pack_u64. Bytes are integers 0..255; floats are their bit patterns; None is an exception.
Not modelled: coercion of other objects (to_int, to_str), the encoding of the result, the buffer: and offset: arguments
(offset only shifts the string), f32 rounding.
Disagreements found: C36_ber_large_refuted, C36_uleb_large_refuted, C36_utf8_large_refuted, C37_positioned_refuted,
C56_cstrings_refuted.

### Marshal (MarshalModel.v, EncModel.v, FtextModel.v) - C38, C39, C57
Modelled: marshal.rs writer and reader for nil, booleans, Integers, Floats, Symbols, Strings, Arrays, Hashes, plain objects,
Regexps, instance variables, encodings, subclasses ('C'), symbol and object link tables; float_to_marshal_string whole
(FtextModel.v). A graph is a heap and a root; all objects of the heap must satisfy `obj_ok`. Isomorphism is an injective
renaming of addresses on the reachable objects (NaN payloads are not distinguished).
Oracles: the text the dtoa crate gives (`dtoa_ok`: a decimal text that parses back) and `str::parse::<f64>` (`parse_ok`:
depends on the number written, a minus sign sets the sign bit); which class paths exist; eql? of containers as Hash keys
(not used by the round-trip, whose keys are scalars).
Not modelled: listed at the head of MarshalModel.v (user protocols, Struct, Range, Exception, Class, Module, Complex,
Rational, extend, default procs, proc and freeze arguments, native stack depth).
Disagreements found: C38_huge_refuted, C39_big_refuted, C39_encoding_refuted, C39_regexp_refuted, C39_ivar_refuted,
C39_identity_refuted, C39_symbol_refuted, C39_nested_refuted, C39_subclass_refuted, C39_huge_string_refuted,
C57_panic_refuted.

### Classes and modules (ClassModel.v) - C40, C58, C59
Modelled: module.rs include_module, prepend_module, check_cyclic, is_ancestor_of and is_ancestor_of_before_origin on a heap of
nodes (heads, iclasses, origins); propagate_prepend_to_subclasses (class.rs:1435-1509); Module#ancestors (store.rs:319-379);
definition of classes, singleton classes and modules. A state is any one reachable from BasicObject, Object, Kernel by any
history of these operations, including those that raised.
`weave` (ClassSpec.v) is the list function the double walk computes; `lineage` are the ids on the chain of a receiver.
Not modelled: Class.allocate, Module#dup and clone, the hooks (included, prepended, append_features overridden in Ruby),
refinements, threads.
Disagreements found: C40_order_refuted, C40_position_refuted (base is the head, not the origin), C40_superclass_refuted,
C40_object_refuted, C40_panic_refuted, C58_reaches_refuted, C58_singleton_refuted, C58_mixed_refuted, C58_front_refuted,
C59_refuted.

### Method lookup, call sites, super (LookupModel.v) - C41, C60, C61
Modelled: search_method_refined (class.rs:1145-1222), the global method cache with its u32 version, check_bool_method,
add_method, undef, remove_method, change_method_visibility, alias, method_defined?; find_method's visibility checks and the
inline cache of an interpreted site; a compiled site with guard, version stamp, salvage and recompilation; check_super and
check_super_at. The class heap is that of ClassModel.v. `resolves` (LookupSpec.v) says what a lookup along a list of classes
should give; `sparse` and the bounds 2^32 keep the version from coming round.
A history is any list of operations from a state with TrueClass and FalseClass defined; a site is any interleaving of such
operations with calls by any callers.
Not modelled: activation of refinements, method_missing, Module#dup and clone, how the executor counts the occurrence index
of a super frame, several calls in one compiled unit, the constant and ivar guards.
Disagreements found: C41_orphan_refuted, C41_wrap_refuted, C41_remove_undefined_refuted, C41_method_defined_refuted,
C41_boolean_visibility_refuted, C41_allocate_refuted, C60_protected_refuted, C60_refused_refuted, C60_private_refuted,
C60_compiled_protected_refuted, C61_undef_refuted.

### Registers in compiled Integer code (GpModel.v) - C42
Modelled: GpRegFile and allocate_run (gp_alloc.rs whole); the online driver for Integer + - * / | & ^ and comparisons
(state/binop.rs: folding, immediate forms, gp_ensure, result register, guards), literals, moves, flush at the block end,
clear_above_next_sp; write-back snapshots and their execution at a side exit; the x86-64 instruction sequences of
binary_op.rs register by register (the arithmetic is that of FixAsmModel.v, C43).
A block starts with an empty register file and slots of unknown class. `step` (GpSpec.v) is one operation on its own; a block
that leaves is compared with the operations before the instruction it left at.
Not modelled: Float registers, branches and joins between blocks, calls, the other operators (%, **, shifts, unary), the
recompilation counter, aarch64 (same allocation code, other instruction sequences).
Disagreements found: C42_self_division_refuted (binary_op.rs:71-107: `sar` of the shared register, then again of its copy),
C42_victim_refuted and C42_old_result_refuted (binop.rs: the snapshot is made before the result register is chosen, and the
lowering writes that register before it tests for overflow).

### Integer methods (ImModel.v) - C62, C63, C64, C65
Modelled: integer.rs index in all its forms, pow with a modulus, floor, ceil, truncate, round with digits, bit_length; op.rs
integer_index1; the compiled bit index and its folding; integer.rb gcd, lcm, sqrt, digits, ceildiv, remainder.
i64 arithmetic wraps and shift counts are masked as in release builds; BigInt is Z.
Not modelled: to_int of other arguments, memory exhaustion on huge shifts and powers.
Disagreements found: C62_bit_refuted, C62_len_refuted, C62_span_refuted, C62_span_negative_refuted, C63_unit_refuted,
C63_min_refuted, C63_big_exponent_refuted, C63_big_modulus_refuted, C64_wrap_refuted.

### Printing and parsing Integers (IstrModel.v) - C66
Modelled: Integer#to_s, String#to_i and Kernel#Integer on strings, with signs, prefixes, underscores and bases, on lists of
Unicode scalar values. Rust's decimal formatting, i64::from_str_radix and BigInt::parse_bytes are taken to be exact.
Not modelled: invalid UTF-8, NUL characters, the exception: keyword, Integer() of other objects.
Disagreements found: C66_gap_refuted, C66_two_signs_refuted, C66_prefix_gap_refuted, C66_nbsp_refuted,
C66_integer_nbsp_refuted, C66_foreign_prefix_refuted, C66_underscore_refuted.

### Arithmetic sequences (AseqModel.v) - C67, C68
Modelled: arithmetic_sequence.rs size, first, last, term_at, the counts in i128 and f64, aseq[array]; arithmetic_sequence.rb
to_a and each; range.rb __range_step_numeric (step with a block). Floats are SpecFloat's binary64.
`each` and `step_block` give the first `fuel` values yielded. `Wild` (C68) is a read outside the array.
Not modelled: Rational and user-class endpoints, to_int conversions, running out of memory.
Disagreements found: C67_clamp_refuted, C67_big_size_refuted, C67_big_terms_refuted, C67_float_block_refuted,
C67_mixed_refuted. C68_descending_refuted follows CRuby.

### Floats to Integers, Float modulo (FintModel.v) - C69, C70
Modelled: Float#to_i, Kernel#Integer of a Float, floor, ceil, truncate, round (digits up to 0) with its half modes, the f64
sum floor + 0.5 in round_half, divmod and modulo of two Floats. FlProofs.v proves that SpecFloat's rounding leaves numbers of
at most 53 significant bits as they are.
f64::floor, ceil, trunc, round and fmod are the mathematical functions; f64::powi is compiler-rt's __powidf2. The sign of a
zero result is not represented.
Not modelled: round with positive digits, divmod with Integers and other objects.
Disagreements found: C69_integer_refuted, C69_far_refuted, C69_wrap_refuted, C69_digits_refuted, C69_floor_above_refuted,
C69_truncate_refuted, C70_divmod_refuted.

### Binding arguments (ArgModel.v) - C71 to C74
Modelled: args.rs (filling positional slots, keywords, double splats, forwarding, the invokers), ParamsInfo and the FuncInfo
predicates it uses, the inline argument setup of compiled calls and the slot types it assumes, the order in which
bytecodegen keeps keywords. `UB` is an access outside the frame or the argument area.
ArgSpec.v says what a call should do without slots or call-site tables; `call_result` is shown to determine the result.
#to_ary is an arbitrary function. A value is nil, an Array, a Hash with its flag or an opaque object; identity is not modelled.
Not modelled: block parameters (&blk), coerce_hash_splat_args raising, the 16 bit limit of slot numbers, the chain-deopt
rebuilding of deferred arguments, error messages, method_missing.
Disagreements found: C72_order_refuted, C72_splat_block_refuted, C72_splat_to_ary_refuted, C72_no_keywords_refuted,
C73_post_refuted, C73_type_refuted, C73_arity_refuted, C73_unknown_refuted, C73_duplicate_refuted,
C73_define_method_refuted, C74_flag_refuted, C74_to_ary_refuted, C74_consumed_refuted, C74_reversed_refuted,
C74_error_refuted.

### Kernel#send (SendModel.v) - C75
Modelled: the builtin method, its fallback to method_missing, the code object_send_inline emits (version check, the cache of
four names with counters and swaps, the receiver guard before it), the simple and the single-splat argument setup. Built on
LookupModel.v and ArgModel.v. An Array is its elements and the first word of its buffer, which is arbitrary when it is empty.
Not modelled: refinements, blocks, the lazy marker of `...`, public_send (which is not compiled specially).
Disagreements found: C75_classes_refuted, C75_booleans_refuted, C75_method_missing_refuted, C75_numbers_refuted,
C75_keywords_refuted, C75_empty_refuted, C75_operand_refuted.

### JSON (JsonModel.v) - C76 to C78
Modelled: json.rs (parser and generator), json/ext/generator.rb (State, the escaping functions, to_json of the JSON classes),
json.rb's pretty_generate, dump and fast_generate without options. JsonSpec.v is the grammar of RFC 8259, with the meaning of
a text; the last of repeated members counts, in the place of the first.
Oracles: the dtoa formatter, str::parse::<f64>, Float#to_s and String#encode. That formatted Floats are JSON numbers and read
back (`format_ok`) is a hypothesis of the theorems about generation.
Not modelled: messages and classes of parse errors, the Ruby parser used with options, user-defined to_json, Array and Hash
keys (their inspect text), running out of stack.
Disagreements found: C76_fixnum_refuted, C76_nan_refuted, C76_keys_refuted, C76_encoding_refuted, C77_strings_refuted,
C77_trailing_refuted, C77_big_refuted, C77_surrogates_refuted, C77_depth_refuted, C78_symbol_refuted, C78_top_refuted,
C78_ascii_refuted, C78_limits_refuted.

### Instance variables (IvarModel.v) - C79 to C81
Modelled: the name tables of classes, inline and spilled slots, the table's growth, instance_variable_get, _set, _defined?,
remove_instance_variable, instance_variables, the inline caches, what the JIT compiles for self and for attr_reader and
attr_writer, the preparation on entry, get_singleton, dup, clone, freeze. A frame remembers its object; the class is only
compared on entry. `Crash` is an access outside the table or a failed assertion.
IvarSpec.v has one list of variables per object, in the order of assignment.
Not modelled: the write barrier, copy hooks that assign, elided tests of the frozen bit, Struct members, IO#reopen (which
changes the class too), class variables.
Disagreements found: C79_reader_refuted, C79_order_refuted, C80_compile_refuted, C81_dup_refuted, C81_clone_refuted.

### Dispatch in compiled code (DispModel.v) - C82, C83
Modelled: compile_method_call (version and class guards, inlined accessors and builtins, ordinary and specialized calls), the
flow of the version flag and of known classes through branches and loops, one version word per compilation, recovery of a
unit at a failed guard, recompilation, deoptimization, the conversion of all suspended frames of a fiber (chain_deopt).
A program is arbitrary; so are the profile, the moment of compilation, specialization and the failure of any other guard
(`policy`). Method resolution is a table that definitions change arbitrarily; C57 to C60 are about the table.
DispSpec.v looks every method up when it is called. `calm` (no singleton class, no redefining conversion inside an
instruction, no fiber) is recorded by the run itself in `w_quiet`, on which nothing depends.
Both sides use the same fuel, so the two directions together say that they end together.
Not modelled: exceptions, blocks, super, refinements, visibility, other than positional arguments, on-stack replacement,
recompiling one specialized callee, constant folding, registers. The version is a natural number; it is 32 bits in the code.
Disagreements found: C82_singleton_refuted, C82_helper_refuted, C82_fiber_refuted.

### begin, rescue, else, ensure and exits (C84, C85)

EnsModel.v: bytecodegen/statement.rs:411-724 (gen_begin), 146-185 (gen_while), bytecodegen/expression.rs:839-949 and
2298-2332 (break, next, redo, retry, return and their block forms), bytecodegen.rs:937-981 and 1211-1258 (copies of pending
ensure bodies), bytecodegen/encode.rs:64-86 and globals/store/iseq.rs:708-758 (exception tables), codegen/jit_module.rs:100-314
(handle_error), executor.rs:1573-1634 (deferred unwindings), codegen/runtime.rs:2425-2460, builtins/kernel.rs:4240-4310 (catch,
throw). Bytecode is kept as a tree and the exception table is read off it; values, exceptions and tags are numbers; a frame has
one local variable; what ordinary code does is an arbitrary function of the trace so far; the address of a frame is its depth,
so two successive callees of a frame share an address, as they do in the code when argument counts agree.
The specification (EnsSpec.v) knows nothing of copies, tables or deferral. Its flag is not looked at by any decision; it is
lowered in ten situations, all refuted.
Not modelled: `$!`, backtraces, fatal errors, fibers, lambdas and procs that outlive their frame, ensure in eval and class
bodies, the compiled form of these instructions. Runs that do not end are not compared.
Disagreements found: C84_return_refuted, C84_else_refuted, C84_retry_refuted, C84_break_refuted, C84_nested_refuted,
C84_hidden_refuted, C84_local_refuted, C84_dropped_refuted, C84_stale_refuted, C84_again_refuted.

### Array (ArrModel.v, ArrIterModel.v, ArrJitModel.v) - C86 to C89
Modelled: value/rvalue/array.rs:249-273 and 317-483, the methods of builtins/array.rs named at each definition, the code
emitted for a[i], a[i] = v, size, <<, a[i, n] = b and rotate! (codegen/arch/x86_64/compile/index.rs, jitgen/state/index.rs,
builtins/array.rs:948-1035 and 1443-1532, arch/x86_64/compile/builtin.rs:805-945). An Array is the list of its elements, of an arbitrary
type; arguments have been converted to i64 (or are an Array, an object with the answer of its to_ary, or any other object).
For C89 it is the words of the object: capacity field, length field, the five inline words, the heap buffer.
`Panic` is a Rust panic (slice index, capacity overflow). `HUnsafe` is a read through a slice whose Array was reallocated or
shortened meanwhile.
Not modelled: allocation failing for lack of memory below the capacity limit, sort and sort_by, pack, hash, inspect, delete
with an == that changes the array, flatten of objects with to_ary, bsearch in find-any mode, the garbage collector seeing
half-written arrays. fill's own limit of 2^30 (RangeError, where Ruby allocates) is outside C87_fill_partial.
Noted without a theorem: find_index(v) and count(v) call v == element, Ruby calls element == v.
Disagreements found: C86_mul_refuted, C86_transpose_refuted, C86_product_refuted, C86_product_empty_refuted,
C86_flatten_refuted, C87_huge_refuted, C87_conv_nil_refuted, C87_range_refuted, C87_range_conv_refuted,
C87_slice_bang_refuted, C87_fill_refuted, C88_retain_refuted, C88_retain_value_refuted, C88_fill_refuted,
C88_product_refuted, C88_held_moved_refuted, C88_held_cleared_refuted, C88_held_grown_refuted, C89_frozen_refuted,
C89_twice_refuted.

### String (StrModel.v, StrCharModel.v, StrCatModel.v) - C90 to C92
Modelled: value/rvalue/string.rs (classification, character walk, length, reverse, compatibility, the append family, repeat,
set_byte, substring propagation, bytesplice), the methods of builtins/string.rs named at each definition, interpolation
(codegen/runtime.rs:948-1032), the machine code for << and setbyte (codegen/arch/x86_64/compile/builtin.rs:97-403). A string
is bytes, encoding and classification. Buffers, their sharing and capacity are not here; `room` is arbitrary. Where a method
converts its argument first, the string before and after the conversion are two arguments.
The ISO-2022-JP decoder of encoding_rs is an arbitrary function (`jis`); every theorem holds for all of them.
StrCharSpec.v defines characters inductively, StrCatSpec.v the compatibility rule on contents.
Not modelled: case mapping, regular expressions, transcoding, succ, tr, format; strings of 2^60 bytes and more in the index
theorems; arguments that are not strings or integers.
Disagreements found: C90_name_refuted, C90_valid_refuted, C90_compiled_refuted, C90_slice_refuted, C90_splice_refuted,
C90_splice_encoding_refuted, C91_pair_refuted, C91_surrogate_refuted, C91_far_refuted, C91_lead_refuted,
C91_wrap_refuted, C91_empty_refuted, C91_byteslice_refuted, C91_reentry_refuted, C92_join_refuted, C92_compare_refuted,
C92_ordinal_refuted, C92_transitive_refuted, C92_pad_refuted, C92_interpolation_refuted.

### Shared string buffers (StrShareModel.v) - C93
Modelled: value/rvalue/string.rs:671-806 (inline, heap and shared contents, drop, clone), 1298-1370 (owned_mut, uniquify),
2427-2600 (substring, snapshot, share_string_buffer, ensure_shared_root), marking of the root (rvalue.rs:1030, 1147), and the
writers listed at `op`. A mutator is any function of the bytes, applied in place, after a move, or into a new buffer.
Addresses are not reused, so a use of freed memory is always visible in the model. The collector marks what `env` names; that
every live string of a program is named is not part of this model. Bytes only; encodings are in StrModel.v.
Disagreements found: C93_read_into_refuted, C93_call_refuted, C93_append_self_refuted.

### Constants (ConstModel.v) - C94 to C96
Modelled: the lookup (lexical scopes, ancestors, Object, prefixes, visibility, autoload state), the interpreter's inline cache
keyed by the global constant version and the base or the singleton class, the values folded into compiled units, the epochs by
name, the re-validation of a unit whose version word is old, the sharing of one guard by several references of a run, and
`defined?`. File and lines stand at each definition.
Simplifications: a hook (const_missing) only returns or raises; a reference that starts an autoload ends there; the ancestors of
classes not yet created are given from the start; the singleton flag of a frame's own code is that of its method; specialised
units of inlined blocks are not separate; threads, the prefix of an assignment, const_added and deprecation warnings are not modelled.
What the code announces: assignment, removal, include and extend bump the version. What it does not: `class Foo` and
`module Foo` (executor.rs:3835-3900, class.rs:1647-1698), Module#autoload (builtins/module.rs:748) and the changes of an
autoload's state, private_constant, public_constant and deprecate_constant (builtins/module.rs:2826-2850), and the context
written into a class body that is entered again (codegen/runtime.rs:476-484). const_missing's result is cached, and so is the nil
of `X ||=`. The guard of compiled code survives ConcatStr, ConcatRegexp, ToA, ExpandArray, ArrayTEq, Hash and global variables,
all of which may run Ruby code.
Disagreements found: C94_keyword_refuted, C94_autoload_refuted, C94_private_refuted, C94_hook_refuted, C94_check_refuted, C94_context_refuted, C95_helper_refuted, C95_salvage_refuted, C96_private_refuted, C96_toplevel_refuted, C96_behind_refuted.

### Bytecode generation (GenModel.v) - C97 and C98
Modelled: the generator for literals, self, local variables, binary and unary operators, `&&`, `||`, assignment of every simple
kind (=, op=, ||=, &&=, attribute, index, multiple with as many sides, `*x =`), sequences, if, while and until with break and
next, return, calls and safe navigation with plain arguments, array literals; for every way of using a value (not used, pushed,
put in a register, returned, tested by a jump); and the execution of the code on registers. Everything that runs Ruby code is a
call whose effect on the world, its result and the new values of captured variables are arbitrary.
Simplifications: an operator, an index and a literal object are calls; a multiple assignment always builds its array (the
code leaves it out when nothing uses it, which only allocates); an index target has one index.
Not modelled: break and next outside of loops (blocks), splat, keyword and block arguments, the splitting of long array
literals, case, for, rescue and ensure, `begin ... end while`, instance variables as special instructions, string interpolation,
op-assignment to attributes and indices, multiple assignment with a splat or one right side, defined?, the checks on the number
of temporaries. Runs whose evaluation does not end are not compared.
What goes wrong: `gen_expr_reg` gives a local variable's own register, which is read only by the instruction
(bytecodegen.rs:1941-1960), so a later operand or a block may have changed it; a value wanted in a register is built in that
register (`gen_store_expr`), so for `a = b && ...` and `a = (a.x = ...)` the variable changes before the rest is evaluated.
Disagreements found: C97_operand_refuted, C97_receiver_refuted, C97_block_operand_refuted, C97_opassign_refuted, C97_attr_refuted, C97_and_refuted, C97_and_break_refuted, C97_and_raise_refuted, C97_setter_refuted, C97_splat_refuted, C97_splat_self_refuted, C97_splat_again_refuted, C97_multi_refuted, C97_unary_refuted, C97_value_refuted, C97_loop_refuted.

### Frames in the stack and in the heap (ClosModel.v) - C99 and C100
Modelled: the control frames with their local frames in the machine stack, `move_frame_to_heap` with its tombstones and the
outer chain, block handlers as (code, steps back), passing a block parameter on, `generate_proc_inner`,
`materialize_escaped_block_handlers`, `generate_lambda`, `generate_binding`, the instruction for a block parameter, `get_block`
and yield, builtins that keep the ProcData of their block, the invocation of a block with its outer frame looked up again,
variables of outer frames read through raw outer pointers, the register with the current frame and where it is reloaded,
returns, `yield_home` and its control frame. The specification has environments that are never moved.
The proof is an invariant: references of frames still in the stack are direct; a block frame whose outer frame is in the stack
keeps every younger frame from referring to what lies between (g_dom), so that no promotion can pass it by.
Simplifications: a handler is a pair (the code packs it in a fixnum; the stack is too small for 65536 steps back); a Binding is
a Proc whose code is the evaluated text; slots are unlimited.
Not modelled: fibers and threads, handlers that are symbols or objects with to_proc, compiled code and its inlined frames,
exceptions and non-local exits (only where a return goes), define_method, garbage collection, variables that eval adds.
Disagreements found: C100_binding_yield_refuted, C100_binding_given_refuted, C100_binding_param_refuted, C100_same_object_refuted.

### Fibers (FiberModel.v) - C101 and C102
Modelled: the fields of an executor that links use (parent, resuming, return target, suspended in yield, transferred, killed,
pending error, thread root), resume_fiber, activation, transfer with its return target, Fiber.yield, the end of a fiber,
Fiber#raise and Fiber#kill, the checks and messages of FiberError, the fibers of enumerators (Fiber::from), and at the top of
each suspended stack the native frame that will receive the next value, with what that frame then does (it clears fields of
fibers, moves a pending error, answers nil for a kill).
A program is any sequence of what the running fiber does next. The specification has CRuby's links: who resumed me, whom I am
waiting for; a fiber that nobody resumed returns to the innermost fiber the root is waiting for.
Simplifications: the machine stacks are the list of such frames (one at the top); values are nil, integers, booleans and fibers;
an exception is a number; the root fiber's end is not followed.
Not modelled: threads and fibers of several threads, the fiber scheduler, storage, Fiber#backtrace, a kill of a fiber that waits
for another (CRuby raises nil there), what a killed fiber does in ensure, garbage collection of fibers, stack overflow.
Disagreements found: C102_sticky_refuted, C102_stale_refuted, C102_raise_refuted, C102_root_refuted, C102_kill_refuted, C102_inside_refuted, C102_kill_dead_refuted.

### sprintf (FormatModel.v) - C103, C104 and C105
Modelled: the parser of directives (flags, numbers of arguments in their three places, widths and precisions with stars, the two
kinds of numbering), the integer directives with sign, mark, zeros, precision and width, the complement of negative numbers
digit by digit, and cutting and filling text. Text is a list of code points; widths that the code counts in bytes are counted in
UTF-8 bytes. A width given to the format macro above 65535 panics (the toolchain's limit).
The conversions of arguments to integers, floats and text are parameters; so is coerce_to_integer of a star.
Not modelled: the directives for floats and c, named references, $DEBUG's check for too many arguments.
The index of an argument is counted in usize and wraps around in a release build.
Disagreements found: C103_zero_with_precision_refuted, C103_marked_zero_refuted, C103_signed_octal_refuted, C103_no_panic_refuted, C104_index_refuted, C104_star_range_refuted, C104_width_range_refuted, C105_width_refuted.

### sprintf %a (FormatHexModel.v) - C106
Modelled: format_hex_float and round_hex_mantissa on the exponent and mantissa fields of a finite float that is not zero, with
the normalisation of subnormal floats, the trimming of zeros, and the padding to more than 13 digits. Not modelled: zero, NaN and
infinity, and the sign, flags and width put around the text.
Disagreements found: C106_nearest_refuted.

### Sets of characters (TrModel.v) - C107, C108
Modelled: expand_tr_spec, the byte path ascii_tr_translate with its bitmaps and table, tr_build_map, tr_translate and
tr_translate_bytes, Charset with its bitmap of two words, and the loops of count, delete and squeeze. A string is a list of
characters as numbers; in an encoding other than UTF-8 a character beyond ASCII is any number from 128 and the sets are ASCII.
Not modelled: the conversion of the arguments, the encoding checks, the mapping of strings of single bytes to characters, sets
with characters beyond ASCII in other encodings, and the in-place variants beyond the flag they test.
Disagreements found: C107_caret_refuted, C107_escape_refuted, C107_empty_refuted, C107_unread_refuted, C108_escape_refuted, C108_empty_refuted. (Ruby takes a caret in the replacement as a character, does not look for a
backslash at the end of a range, returns an empty receiver before it reads the sets, and reads only as much of the replacement
as the set needs.)

### String#succ (SuccModel.v) - C109
Modelled: str_next on strings of code points below 127: the category test, succ_char with its walk back to the first character of
the alphabet, the loop over the characters from the right with its flags, and the insertion on overflow. Not modelled: characters
beyond ASCII (Unicode categories), the result's encoding, succ! and upto.
Disagreements found: C109_gap_refuted (with another character at the end, the kind of the first letter or digit is not
remembered, so that the carry goes on to one of the other kind across a gap: a-9- becomes b-0- and not a-10-).

### External iteration (EnumModel.v) - C110
Modelled: the fields internal, buffer, feed and stop_result of an enumerator, yield_next_values, next, next_values, peek,
peek_values, rewind and feed, and enum_yield_values on an abstract fiber. A producer is a function from the answers its yields
got to what it does next, so it is deterministic and does not use its own enumerator. Not modelled: size, with_index and the
other adapters, Generator and Yielder, the source's own rewind method, and frozen enumerators.
Disagreements found: C110_fed_at_end_refuted, C110_own_array_refuted, C110_raw_refuted. (At the end of the iteration Ruby drops a fed value; it hands out copies of the
lookahead; and a value passed out of the producer with Fiber.yield is what next returns, where as_array panics.)

### Time (TimeModel.v) - C111 to C114
Modelled: from_args, build_naive_datetime, days_in_month, the seconds and microseconds arguments, generate_time and time_local,
addition, subtraction, comparison, hash, Time.at, rescale_nsec and apply_subsec, _dump and _load with Marshal's nano_num and
offset variables, parse_utc_offset_string, format_offset, format_subsec, iso8601, parse_time_string and build_time_string.
chrono is not modelled but taken by its contract: dates are days of the Gregorian calendar in the years -262143 to 262142, the
local zone is any function from instants to offsets, and its lookup answers with the offsets that fit. Not modelled: the other
directives of strftime, time zone objects, the rounding of the product of a Float with 10^9, strings as fields, Time.at's second
argument in the theorems, zone names, and the local zone's database.
Disagreements found: C111_local_refuted, C111_hour24_refuted, C111_float_refuted, C111_rational_refuted, C111_year_refuted, C112_diff_refuted, C112_add_refuted, C112_sub_refuted, C112_exact_refuted, C112_panic_refuted, C113_payload_refuted, C113_year_refuted, C113_gap_refuted, C113_legacy_refuted, C114_colons_refuted, C114_milli_refuted, C114_utc_refuted, C114_year_refuted, C114_second_refuted. (The last two of C112 are limits of the representation; C112_diff and
C112_panic end the process.)

### IO::Buffer (BufModel.v) - C115 to C117
Modelled: the five kinds of storage, read_bytes and write_at, new, for with and without a block, free, transfer, resize, slice,
dup, get_string, set_string, get_value, set_value, values, clear, <=>, the bitwise methods, locked, and other code changing a
String behind a buffer. A history is any list of these. Buffers are numbered by age and a slice names an older buffer, which the
code ensures since a slice is made after its source; following a chain of slices is therefore total here, while the code recurses
and would overflow the stack for very long chains. A file mapping is memory of the process. A Float is its bits. A copy of a
String onto itself through a buffer is done byte by byte in order; in the code the two slices alias, which Rust leaves undefined.
Not modelled: flags other than READONLY and PRIVATE, to_s, hexdump, each_byte, conversion of Floats, failing allocations, frozen
buffers, the checks of IO::Buffer.map, and the error raised for masks that overlap the buffer.
Disagreements found: C115_set_value_panic_refuted, C115_clear_panic_refuted, C115_invalid_write_refuted, C115_middle_refuted, C115_dup_refuted, C116_dup_locked_refuted, C116_dup_readonly_refuted, C117_negative_get_refuted, C117_negative_set_refuted, C117_u64_refuted, C117_count_refuted, C117_order_refuted, C117_overlap_refuted. (C115_set_value_panic and C115_clear_panic end the process.)

### Range (RangeModel.v) - C118 to C120
Modelled: for ranges of numbers, cover? of numbers and ranges, overlap?, each, reverse_each, to_a, step with a block over three
Integers, size, count without a block, first(n), last(n), the walk of map, flat_map and all?, min, max, max(n), and bsearch over
Integers and Floats. A finite Float is its exact value (any rational) in C118 and C119 and its 64 bits in C120. Comparison of
Integer and Float is exact (C08). A loop has fuel and says whether it has ended; the statements say when it does. The block of
bsearch is a pure function into the five classes of __bsearch_classify; a block that raises is not modelled.
Not modelled: ranges of Strings and other objects, step over Floats, enumerators without a block, min and max with a block,
minmax, ===, include?, ==, hash, and conversion of Integer ends of a Float bsearch.
Disagreements found: C118_cover_range_refuted, C119_max_refuted, C119_max_float_refuted, C119_max_n_refuted, C119_map_refuted, C119_map_big_refuted, C119_count_refuted, C119_last_refuted, C120_endless_refuted, C120_zero_refuted, C120_zeros_refuted.
Seen while reading, not modelled: (..3).max(2) is answered where Ruby raises; ("9".."11").each yields nothing; reject over an
inclusive String range stops early; StopIteration raised in the block of an endless step or beginless reverse_each is swallowed; reverse_each of a beginless range
with a Float end iterates where Ruby raises TypeError.

### Array combinatorics and bsearch (CombModel.v) - C121 to C123
Modelled: combination, permutation, repeated_combination and repeated_permutation with a block, the size blocks of their
enumerators, product with its row limit, bsearch and bsearch_index. The generators yield rows of positions in the copy of the
receiver; the arrays of indices and cycles are lists of natural numbers, the loops run on fuel that the statements show to exist.
The block of combination returns or raises StopIteration or something else. For permutation the receiver's size may change (the
negative index into indices is modelled while it is inside the array); for product the arrays may be others at each row.
The block of bsearch is a pure function into true, false, nil, a number, something else.
Not modelled: to_int of the argument, Enumerator replay, to_ary of the arguments of product.
Disagreements found: C121_stop_refuted, C122_copy_refuted, C123_product_big_refuted, C123_product_panic_refuted, C123_product_copy_refuted, C123_find_any_refuted.
Seen while reading, not modelled: permutation, repeated_permutation and repeated_combination swallow StopIteration in the same
way as combination; values_at skips a range that begins before the array where Ruby raises RangeError.

### Enumerable and Comparable (EnblModel.v) - C124 to C126
Modelled: the Ruby code of each_slice (with the size of its enumerator), each_cons, chunk, chunk_while, slice_when, slice_before,
slice_after, take, partition, group_by, uniq, min, max, minmax and their _by forms without n, zip, cycle, sum; all of Comparable.
The receiver is the list of elements each yields, one value each; blocks are pure functions; Hash keys have an equality test.
A comparison gives nil or a number; the theorems about orders are about comparisons that follow a rank.
The argument of zip is a finite or an endless enumeration. sum is modelled for Integers and Floats (Coq's SpecFloat).
Not modelled: several values at once from each, to_int of the arguments, min(n) and max(n), Enumerator itself,
false as a bound of clamp, Rational and Complex in sum.
Disagreements found: C124_nil_before_refuted, C124_nil_after_refuted, C124_size_refuted, C124_size_inexact_refuted, C125_by_refuted, C125_zip_refuted, C125_cycle_stop_refuted, C125_sum_infinity_refuted, C125_sum_kahan_refuted, C126_eq_refuted, C126_ne_refuted, C126_ne_self_refuted, C126_clamp_refuted, C126_between_refuted.

### Set (SetModel.v) - C127 to C129
Modelled: new, [], add, add?, delete, delete?, include?, dup, compare_by_identity, merge, subtract, replace, the four operators,
the comparisons, intersect?, disjoint?, delete_if, keep_if, select!, reject!, collect!, divide with one argument, hash, reset.
Objects have an arbitrary equivalence eql? and identity; a set is the list of the keys of its Hash (C09, C10).
Arguments are sets, finite or endless enumerations, ones that raise and objects that are not enumerable; blocks are pure functions.
Not modelled: flatten, classify, divide with two arguments, join, inspect, frozen sets, changes while a set is iterated,
the fact that merge asks for to_a rather than each.
Disagreements found: C127_index_refuted, C127_union_refuted, C128_order_refuted, C128_intersect_endless_refuted, C128_intersect_raise_refuted, C129_dup_refuted, C129_dup_class_refuted, C129_divide_refuted, C129_reset_refuted.

### Enumerator::Lazy (LazyModel.v) - C130 to C132
Modelled: the fifteen stages of lazy.rb with their sizes, as nested each with blocks, local variables and breaks; force, eager, first.
Each yields one value; blocks are pure functions; the source is a list, and C131_endless says when its rest does not matter.
The others of zip are functions from the place to an element or nil.
Not modelled: several values at once, with_index with a block, zip with a block, chunk and slices of a Lazy (see C124), to_enum,
next and peek on a Lazy (see C110), inspect, exceptions of blocks, to_int of the arguments.
Disagreements found: C130_flat_map_refuted, C132_size_refuted.

### Monitor (MonModel.v) - C133
Modelled: enter, exit, try_enter, synchronize, owned?, locked? and wait of monitor.rb; a step is a whole call, so that the
refutations need no switch within a method. Not modelled: MonitorMixin, new_cond, signal and broadcast (no-ops),
switches within a method.
Disagreements found: C133_exclusion_refuted, C133_exit_refuted, C133_exit_free_refuted, C133_wait_refuted.

### Struct (StructModel.v) - C134-C135
Modelled: initialize and keyword_init of struct_class.rs; size, [], []=, to_a, to_h without a block and values_at of one
Range of struct.rb, with readers called by send. Not modelled: Struct.new itself, equality and hash, inspect, dig, each
and each_pair, redefined writers, values_at of Integers, members named members or send.
Disagreements found: C134_keyword_init_false_refuted, C134_inherited_refuted, C134_string_keys_refuted, C134_string_keys_init_refuted, C135_float_refuted, C135_override_refuted, C135_size_member_refuted, C135_endless_refuted, C135_frozen_order_refuted.

### Data (DataModel.v) - C136
Modelled: initialize, new, with, to_h without a block and deconstruct_keys of an Array of data.rb; a redefined initialize is
any function of the keywords. Not modelled: define, equality, hash and inspect, keys that respond to to_str, freezing.
Disagreements found: C136_default_refuted, C136_override_refuted.

### The Ruby part of Hash (HrbModel.v) - C137-C138
Modelled: transform_keys, transform_keys!, transform_values, slice, except, min_by, compact, compact! and rehash of hash.rb;
keys are numbers and a Hash is a list of pairs. Not modelled: default values, compare_by_identity, frozen receivers,
blocks that change the Hash or leave early, each and the methods on top of it (map, any?, all?, count, flat_map).
Disagreements found: C138_min_nil_refuted, C138_min_mixed_refuted.

### Blocks of Hash (HitModel.v) - C139
Modelled: any?, all?, count, flat_map and min_by of hash.rb with a block of one or two parameters, which is a function.
Not modelled: lambdas, patterns of any? and all?, map, Enumerators.
Disagreements found: C139_flat_map_one_refuted, C139_flat_map_to_ary_refuted, C139_min_by_one_refuted, C139_count_both_refuted.

### Iterators of Array whose blocks change the Array (AmutModel.v) - C140
Modelled: map, reverse_each, drop_while and rindex with a block (array.rb). A block is a function of a state, the Array and the element.
Ruby's side (AmutSpec.v) is written from knowledge of CRuby's array.c, which is not in the repository.
Not modelled: exceptions, break, Enumerators, rindex with an argument, map!, Arrays changed by other threads.
Disagreements found: C140_map_shrink_refuted, C140_reverse_each_shrink_refuted, C140_drop_while_shrink_refuted.

### Array's accesses written in Ruby (AvalModel.v) - C141
Modelled: values_at, fetch_values, assoc, rassoc and tally of array.rb. Elements are of any type with a nil; in assoc, rassoc and
tally they are Integers, with == and eql? the equality of Integers. The Hash of tally is a list of pairs in the order of insertion.
Not modelled: to_int of indices, blocks of fetch_values that change the Array, the Hash argument of tally (which the code does not take).
Disagreements found: C141_values_at_range_refuted, C141_assoc_to_ary_refuted.

### Pathname (PathnModel.v) - C142
Modelled: cleanpath_aggressive, cleanpath_conservative, plus, parent, join and relative_path_from of pathname_builtins.rb, on paths given as a leading separator or none and
a list of names, each ., .. or another. chop_basename, prepend_prefix, File.basename, File.dirname and File.join are taken to work on
these names; runs of separators, separators at the end and // are not modelled. File::ALT_SEPARATOR is nil, file names differ by case.
Links are modelled only for cleanpath_conservative: entering a name may lead anywhere, .. is the parent of that place.
Not modelled: children, ascend, descend, everything that asks the file system.
No disagreement was found.

### Numeric (NumrModel.v) - C143
Modelled: div, modulo, divmod and remainder of numeric.rb, which subclasses of Numeric inherit, for numbers of one class whose /, *, -,
floor and comparisons are those of the rationals; the loop of step for Integers (a limit or none, a step).
Not modelled: coerce of different classes, Floats, the keywords and the enumerator of step.
No disagreement was found.

### The Ruby code of String (StrbModel.v) - C144
Modelled: insert, concat, prepend, chop, delete_suffix, partition and rpartition with a String (string.rb). Strings are lists of
characters. The native index, rindex, end_with?, [] and []= are taken as Ruby says. Ruby's side is written from knowledge of CRuby.
Not modelled: encodings, frozen Strings, conversions of arguments, Regexps, concat with Integers, upto.
Disagreements found: C144_insert_index_refuted, C144_concat_self_refuted, C144_prepend_self_refuted.

### Random::Formatter (RndfModel.v) - C145
Modelled: random_number for Integers (random.rb). What bytes gives in each round is a list of Integers of that many bytes; that
they are equally likely is an assumption on the source, not modelled. A Float is its numerator over 2**53, which is exact.
Not modelled: Float arguments, the native methods of Random. Ruby's side is written from knowledge of CRuby.
Disagreements found: C145_negative_refuted.

### File.dirname (FdirModel.v) - C146
Modelled: dirname with its level and _dirname_once (file.rb). A path is a list of characters; the Regexps \A/+\z, /+\z and \A/+
are functions on it. Not modelled: to_path, to_str, to_int, encodings. Ruby's side is written from knowledge of CRuby.
