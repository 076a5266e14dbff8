{"id": "C01", "title": "Immediate values keep their identity", "statement": "Storing an Integer that fits 63 bits, a Symbol, nil, true or false in a variable and reading it back yields the same value, and no two different immediates (nor an immediate and a heap object) are ever the same word.", "quantifier": "every 63-bit integer, every symbol number below 2^32, the three singletons, every 8-byte aligned heap address", "why_tests_cant": "There are 2^64 words; a tag collision shows up on isolated bit patterns that no sampled test hits.", "anchors": ["monoruby/src/value.rs: Immediate::fixnum, Immediate::symbol, Value::is_i63, Value::try_fixnum, Value::try_symbol, Value::is_packed_value"]}
{"id": "C02", "title": "A Float reads back bit for bit", "statement": "Any Float assigned to a variable, put in an Array or passed to a method reads back with exactly the same 64 bits (NaN payloads and the sign of zero included).", "quantifier": "every 64-bit floating point pattern", "why_tests_cant": "2^64 patterns; a single colliding pattern is invisible to sampling.", "anchors": ["monoruby/src/value.rs: Immediate::flonum, Value::try_flonum, Value::try_float, FLOAT_ZERO"]}
{"id": "C03", "title": "Only nil and false are falsy", "statement": "A conditional takes the else branch exactly when the condition is nil or false.", "quantifier": "every representable value word", "why_tests_cant": "The test is a bit trick over the whole word space; every word must be considered.", "anchors": ["monoruby/src/value.rs: Value::as_bool, NIL_VALUE, FALSE_VALUE"]}
{"id": "C04", "title": "Integer + - * and unary minus are exact", "statement": "Adding, subtracting or multiplying two Integers gives the mathematically exact Integer, whatever mixture of small and big representations is involved, and a result that fits the small representation is stored in it.", "quantifier": "all pairs of integers (unbounded), all representations of the operands", "why_tests_cant": "Overflow promotion has its own branch per boundary; unbounded integers cannot be enumerated.", "anchors": ["monoruby/src/executor/op/binary_ops.rs: add_values, sub_values, mul_values", "monoruby/src/value.rs: Value::integer, Value::bigint"]}
{"id": "C05", "title": "Integer division floors and divides exactly", "statement": "For every Integer a and every non-zero Integer b, a.div(b)*b + a.modulo(b) == a and the modulo lies between 0 and b (sign of b); dividing by zero raises ZeroDivisionError and nothing else does.", "quantifier": "all pairs of integers including the most negative small one divided by -1", "why_tests_cant": "Sign and boundary combinations on an infinite domain.", "anchors": ["monoruby/src/executor/op/binary_ops.rs: div_values, rem_values", "monoruby/src/value/numeric.rs"]}
{"id": "C06", "title": "Integer shifts are floor(a * 2**n)", "statement": "a << n and a >> n equal floor(a * 2**n) and floor(a / 2**n) for every a and every n (negative shift counts reverse the direction), unless the result would be too large, in which case an error is raised.", "quantifier": "all integers and all shift counts", "why_tests_cant": "Hardware shifts wrap at the word size; infinitely many counts.", "anchors": ["monoruby/src/executor/op/binary_ops.rs: shl, shr and their helpers"]}
{"id": "C07", "title": "Integer power is exact or refused", "statement": "a ** n for Integers a and n >= 0 is either the exact power or an error because the result would be astronomically large; for n < 0 it is the exact Rational 1/(a**-n).", "quantifier": "all integer pairs", "why_tests_cant": "Exponents near 2^31/2^32/2^63 take separate truncating branches; the domain is infinite.", "anchors": ["monoruby/src/executor/op/binary_ops.rs: pow_values, pow_ii, check_pow_limit"]}
{"id": "C08", "title": "Comparing an Integer with a Float is exact", "statement": "==, <, <=, >, >= between an Integer and a finite Float compare the exact mathematical values, hence == is transitive and < is a strict order across the two classes.", "quantifier": "all integers and all finite floats", "why_tests_cant": "Only values above 2^53 whose rounding coincides misbehave; the space is infinite.", "anchors": ["monoruby/src/executor/op.rs: bigint_cmp_float, cmp_values!, eq_values_vis_raw"]}
{"id": "C09", "title": "The ordered map behaves as an insertion-ordered association list", "statement": "Any history of insertions, updates, lookups, removals, clears on the map underlying Hash gives the same answers and the same iteration order as an association list in first-insertion order, whatever the keys' hash codes.", "quantifier": "all operation histories and all hash functions (including constant ones)", "why_tests_cant": "Collisions, growth, linear/indexed mode changes and index renumbering interact over unbounded histories.", "anchors": ["rubymap/src/map/core.rs: IndexMapCore", "rubymap/src/map.rs"]}
{"id": "C10", "title": "Hash answers do not depend on its internal representation", "statement": "A Hash gives the same lookups, sizes, order and deletions whether it is in its small inline form or its boxed form; crossing the size threshold in either direction is unobservable.", "quantifier": "all histories of []=, [], delete, shift, clear, compare_by_identity", "why_tests_cant": "Representation changes depend on the whole history.", "anchors": ["monoruby/src/value/rvalue/hash.rs: HashmapInner and its HashContent variants"]}
{"id": "C11", "title": "Changing a Hash while iterating it is detected and safe", "statement": "While at least one each-style iteration over a Hash is active, inserting a new key raises and changes nothing, updating or deleting existing keys is allowed; when every iteration has ended, insertion works again, however deeply iterations were nested.", "quantifier": "all nestings of iterations and all operations performed inside", "why_tests_cant": "Nesting depth is unbounded and the depth counter is packed in a few bits.", "anchors": ["monoruby/src/value/rvalue/hash.rs: iter_lev, HashmapInner::insert"]}
{"id": "C12", "title": "sort orders correctly and stably", "statement": "Sorting with a comparison that is a strict weak order returns the elements in non-decreasing order, with equal elements in their original order.", "quantifier": "all arrays, all strict weak orders", "why_tests_cant": "All lengths, all run structures and all orders.", "anchors": ["monoruby/src/executor/op/sort.rs: merge_sort and helpers"]}
{"id": "C13", "title": "sort never loses or duplicates an element", "statement": "Whatever the comparison block answers (even inconsistently) the result is a permutation of the input, and if the block raises the error is propagated.", "quantifier": "all arrays, all comparison functions with state and errors", "why_tests_cant": "The comparator is arbitrary user code.", "anchors": ["monoruby/src/executor/op/sort.rs: merge_sort"]}
{"id": "C14", "title": "File.fnmatch implements the glob language", "statement": "fnmatch(pattern, name, flags) holds exactly when the name belongs to the language of the pattern (literals, ?, *, **/, sets, escapes, PATHNAME, PERIOD/DOTMATCH and case folding rules).", "quantifier": "all patterns, all names, all flag combinations", "why_tests_cant": "Backtracking on unbounded strings.", "anchors": ["monoruby/src/builtins/fnmatch.rs"]}
{"id": "C15", "title": "rand(n) and shuffle stay in range and are reproducible", "statement": "Random#rand(n) returns an integer in 0...n for every n > 0 and every generator state, shuffle returns a permutation, and two generators with the same seed and the same calls return the same values.", "quantifier": "all seeds, all limits, all call histories", "why_tests_cant": "Rejection sampling over all states of a 19937-bit generator.", "anchors": ["monoruby/src/globals/prng.rs", "monoruby/src/builtins/random.rs"]}
{"id": "C16", "title": "Rationals are always in lowest terms and arithmetic is exact", "statement": "Every Rational produced by construction, +, -, *, / or ** has a positive denominator coprime with the numerator and denotes the exact mathematical result; equal values compare equal.", "quantifier": "all integers as numerators and denominators, all operation sequences", "why_tests_cant": "Infinite domain; sign and gcd corner cases.", "anchors": ["monoruby/src/value/rvalue/rational.rs"]}
{"id": "C17", "title": "Rational rounding follows the mathematical definitions", "statement": "floor, ceil, truncate and round (with any digit count and half mode) of a Rational return the mathematically defined neighbour.", "quantifier": "all rationals, all digit counts, all half modes", "why_tests_cant": "Sign, tie and digit-scaling combinations on an infinite domain.", "anchors": ["monoruby/src/value/rvalue/rational.rs: rational_floor, rational_ceil, rational_round, rational_truncate", "monoruby/src/builtins/numeric/rational.rs"]}
{"id": "C18", "title": "Symbols are equal exactly when their names are", "statement": "Interning the same name (bytes and encoding) always yields the same Symbol, interning different names yields different Symbols, and a Symbol's name never changes.", "quantifier": "all sequences of interning requests", "why_tests_cant": "History-dependent table with reserved ids.", "anchors": ["monoruby/src/id_table.rs: IdentifierTable"]}
{"id": "C19", "title": "The collector never frees a reachable object", "statement": "In every history of allocations, field writes, root changes, minor and major collections, an object reachable from the roots keeps its identity and contents.", "quantifier": "all heaps, all mutator histories, all placements of collections", "why_tests_cant": "A missed write barrier needs a particular age/ordering of writes and collections.", "anchors": ["monoruby/src/alloc.rs: gc, mark_remembered, apply_aging, sweep, salvage_empty_pages", "monoruby/src/value/rvalue.rs: write_barrier, age_and_check_promote"]}
{"id": "C20", "title": "A full collection frees every unreachable object", "statement": "After a major collection, every object not reachable from the roots has been freed and its cell is available again.", "quantifier": "all heaps and histories", "why_tests_cant": "Retention bugs depend on history (remembered set, ages).", "anchors": ["monoruby/src/alloc.rs: gc, sweep, clear_mark, salvage_empty_pages"]}
{"id": "C21", "title": "Allocation never hands out a cell in use", "statement": "A newly allocated object never shares its cell with an object that is still reachable, and the free list never contains a cell twice.", "quantifier": "all histories of allocation and collection", "why_tests_cant": "Free list, bump pointer, salvaged pages interact over history.", "anchors": ["monoruby/src/alloc.rs: alloc, sweep, salvage_empty_pages"]}
{"id": "C22", "title": "Object memory stays inside the reserved region", "statement": "Every object handed out lies inside the memory region the allocator reserved from the operating system; if the region is exhausted the program gets a NoMemoryError or aborts cleanly.", "quantifier": "all allocation histories", "why_tests_cant": "Needs gigabytes of live objects to reach.", "anchors": ["monoruby/src/alloc.rs: new_page, MAX_PAGES"]}
{"id": "C23", "title": "Mutex gives mutual exclusion", "statement": "At any moment at most one live thread is between the return of Mutex#lock (or a true try_lock) and the corresponding unlock.", "quantifier": "all numbers of threads, all interleavings at switch points, all kill/raise/wakeup events", "why_tests_cant": "Schedules are unbounded.", "anchors": ["monoruby/builtins/thread.rb: Mutex", "monoruby/src/scheduler.rs"]}
{"id": "C24", "title": "A free Mutex is eventually taken by a waiter", "statement": "If a Mutex is free and some thread is blocked in Mutex#lock on it, then at least one thread blocked there is runnable.", "quantifier": "all interleavings including kill, raise, wakeup and owner death", "why_tests_cant": "Lost wakeups need specific interleavings.", "anchors": ["monoruby/builtins/thread.rb: Mutex#lock, Mutex#unlock", "monoruby/src/scheduler.rs: wakeup, interrupt"]}
{"id": "C25", "title": "Queue delivers each item once, in order", "statement": "Items pushed to a Queue are popped exactly once and in push order, for any number of producers and consumers.", "quantifier": "all interleavings of push, pop, close", "why_tests_cant": "Schedules are unbounded.", "anchors": ["monoruby/builtins/thread.rb: Queue, ConditionVariable"]}
{"id": "C26", "title": "sleep(n) sleeps at least n unless woken during that sleep", "statement": "Kernel#sleep(n) returns before n seconds have elapsed only if some thread woke (or interrupted) the sleeper after that sleep began.", "quantifier": "all schedules, timers and IO readiness orders", "why_tests_cant": "Needs particular races of timers, fds and wakeups.", "anchors": ["monoruby/src/scheduler.rs: sleep, wait_fds, poll_io_waiters, wake_due_sleepers", "monoruby/builtins/thread.rb"]}
{"id": "C27", "title": "A thread is queued at most once and a dead thread never runs again", "statement": "In every reachable scheduler state a thread appears at most once in the run queue, only runnable threads are dispatched and a dead thread is never dispatched.", "quantifier": "all schedules and event orders", "why_tests_cant": "State space of the scheduler is unbounded.", "anchors": ["monoruby/src/scheduler.rs"]}
{"id": "C28", "title": "No poll request is lost", "statement": "A GC, preemption or signal request raised at any time is observed by the next poll of the corresponding kind; handling one kind never erases another kind's request.", "quantifier": "all interleavings of requesters (other OS threads, signal handlers) with the poller", "why_tests_cant": "Needs true concurrency on one atomic word.", "anchors": ["monoruby/src/poll_flag.rs", "monoruby/src/executor.rs: execute_gc"]}
{"id": "C29", "title": "Every trapped signal that arrives is handled", "statement": "If a signal with a trap handler arrives, its handler is eventually run at least once after the arrival.", "quantifier": "all sets of signals and all arrival times", "why_tests_cant": "Two different signals must arrive within one poll window.", "anchors": ["monoruby/src/codegen/signal_table.rs", "monoruby/src/executor.rs: execute_gc"]}
{"id": "C30", "title": "With two or more live threads the time-slice timer runs", "statement": "Whenever two or more threads are alive (and the timer thread has had time to start) a timer is ticking, so a busy thread cannot starve the others.", "quantifier": "all interleavings of thread creation/termination with the timer's own steps", "why_tests_cant": "Race window of a few instructions.", "anchors": ["monoruby/src/preempt.rs: on_thread_count, timer_loop"]}
{"id": "C31", "title": "A completed blocking operation wakes its caller", "statement": "When an operation offloaded to a native worker has finished, the green thread waiting for it is woken and gets that operation's own result, exactly once.", "quantifier": "all numbers of concurrent operations and all interleavings", "why_tests_cant": "Several waiters share one pipe; races of microseconds.", "anchors": ["monoruby/src/native_pool.rs: submit, run_blocking, drain, discard"]}
{"id": "C32", "title": "Written bytes reach the file once and in order", "statement": "For any sequence of writes, flushes and sync= changes on an IO, and any pattern of short writes, EINTR, EAGAIN and signals, the bytes in the file plus the bytes still buffered are exactly the concatenation of the accepted data.", "quantifier": "all data, all kernel behaviours, all retry patterns", "why_tests_cant": "Kernel behaviour is adversarial and unbounded.", "anchors": ["monoruby/src/value/rvalue/io/buf.rs: WriteBuf"]}
{"id": "C33", "title": "Buffered reads return the file's bytes", "statement": "Any sequence of reads, peeks and seeks on an IO returns exactly the file's bytes at the logical position, which advances by what was consumed, whatever the sizes of the kernel's reads.", "quantifier": "all files, all read sizes, all seek sequences", "why_tests_cant": "Read-ahead makes the answer depend on the whole history.", "anchors": ["monoruby/src/value/rvalue/io/buf.rs: IoReader"]}
{"id": "C34", "title": "Integer pack directives round-trip", "statement": "[x].pack(d).unpack1(d) returns x reduced to the directive's width and signedness, for every integer directive, endianness and count.", "quantifier": "all integers (including big ones), all directives", "why_tests_cant": "Infinite domain times all directives.", "anchors": ["monoruby/src/value/rvalue/string/pack.rs: pack, unpack", "monoruby/src/value/coerce.rs: coerce_to_pack_u64"]}
{"id": "C35", "title": "Text pack directives round-trip", "statement": "Base64 ('m'), uuencode ('u') and quoted-printable ('M') decode what they encode, for every byte string and every line length.", "quantifier": "all byte strings, all counts", "why_tests_cant": "Unbounded strings and line lengths.", "anchors": ["monoruby/src/value/rvalue/string/pack.rs: base64_encode, base64_decode, uu_encode, uu_decode, qp_encode, qp_decode"]}
{"id": "C36", "title": "Variable-length pack directives round-trip", "statement": "BER ('w'), ULEB128 ('R'), SLEB128 ('r') and 'U' decode what they encode.", "quantifier": "all integers each directive accepts", "why_tests_cant": "Infinite domain.", "anchors": ["monoruby/src/value/rvalue/string/pack.rs: ber_encode, ber_decode, encode_uleb128, unpack_uleb128, encode_sleb128, unpack_sleb128, utf8_encode_one, utf8_decode_one"]}
{"id": "C37", "title": "unpack1 is the first element of unpack", "statement": "str.unpack1(t) == str.unpack(t).first for every string and every template on which unpack succeeds.", "quantifier": "all strings and templates", "why_tests_cant": "Templates are arbitrary directive sequences.", "anchors": ["monoruby/src/value/rvalue/string/pack.rs: unpack (the once parameter)"]}
{"id": "C38", "title": "Marshal integers round-trip", "statement": "Marshal.load(Marshal.dump(n)) == n for every Integer n.", "quantifier": "all integers", "why_tests_cant": "Boundary per byte count, infinite domain.", "anchors": ["monoruby/src/builtins/marshal.rs: marshal_write_fixnum, read_fixnum, marshal_write_bignum, read_bignum"]}
{"id": "C39", "title": "Marshal round-trips object graphs", "statement": "Marshal.load(Marshal.dump(x)) is a graph isomorphic to x: same values, same sharing, same cycles, for nil, booleans, integers, floats, symbols, strings, arrays and hashes.", "quantifier": "all finite object graphs of those kinds", "why_tests_cant": "The two sides keep separate link tables whose numbering must agree on every graph.", "anchors": ["monoruby/src/builtins/marshal.rs: marshal_dump_value, MarshalReader::read_value"]}
{"id": "C40", "title": "Including a module keeps the method resolution order consistent", "statement": "After C.include(M): M and all of M's ancestors are ancestors of C, the previous ancestors keep their relative order, M's own ancestors appear in the same relative order as in M, nothing is duplicated, and including again changes nothing.", "quantifier": "all class/module configurations reachable by include/prepend", "why_tests_cant": "The splice depends on the whole existing chain.", "anchors": ["monoruby/src/value/rvalue/module.rs: include_or_prepend_module"]}
{"id": "C41", "title": "Method lookup finds the first definition in ancestor order", "statement": "Calling a method runs the first definition found along ancestors, stops at an undef, and applies the nearest visibility declaration; removing or redefining takes effect for the next call.", "quantifier": "all method tables, ancestor chains and histories", "why_tests_cant": "Unbounded hierarchies and histories; caches.", "anchors": ["monoruby/src/globals/store/class.rs: search_method_refined", "monoruby/src/globals/store.rs: check_method_for_class, GlobalMethodCache"]}
{"id": "C42", "title": "Register caching in compiled code does not change results", "statement": "A straight-line sequence of integer operations compiled with cached registers leaves every live variable with the same value as executing the operations one by one.", "quantifier": "all instruction sequences, all values", "why_tests_cant": "Evictions depend on the entire sequence.", "anchors": ["monoruby/src/codegen/jitgen/gp_alloc.rs: allocate_run, GpRegFile"]}
{"id": "C43", "title": "Compiled and interpreted Integer operators agree", "statement": "An Integer operator on small operands gives the same result whether it runs in compiled machine code, is folded at compile time, or runs in the interpreter.", "quantifier": "all pairs of small integers, every operator with a machine-code fast path, both CPU back ends", "why_tests_cant": "The fast paths differ from the generic one only at overflow boundaries among 2^126 operand pairs.", "anchors": ["monoruby/src/codegen/arch/x86_64/compile/binary_op.rs: integer_binop, gen_shr, gen_shl, gen_int_rem", "monoruby/src/codegen/arch/aarch64/compile/binary_op.rs", "monoruby/src/builtins/numeric/integer.rs: fold_shr, fold_shl", "monoruby/src/codegen/jitgen/state/binop.rs: binop_integer_folded"]}
{"id": "C45", "title": "elements stay reachable while the comparison block runs", "statement": "Whenever sort!'s comparison block runs, every element of the array is stored in the array or in the scratch buffer, so a garbage collection inside the block cannot free one that is written back later.", "quantifier": "all arrays, all comparison functions with state and errors, every call", "why_tests_cant": "Needs a collection at one particular call with one particular array shape.", "anchors": ["monoruby/src/executor/op/sort.rs: insert_head, merge", "monoruby/src/builtins/array.rs: sort_inner"]}
{"id": "C44", "title": "eql? values are the same Hash key", "statement": "If two values are eql?, then they have the same key digest, so a Hash keyed on one is found with the other.", "quantifier": "all values (nested arrays, ranges, hashes, strings, numbers), all hashers", "why_tests_cant": "All nested shapes and insertion orders.", "anchors": ["monoruby/src/value.rs: RubyHash and RubyEql for Value", "monoruby/src/value/rvalue/hash.rs: RubyHash and RubyEql for HashRef"]}
{"id": "C46", "title": "rand(range) answers a member of the range", "statement": "rand(a..b) and rand(a...b), on Kernel and on a Random, answer an element of the range when it is not empty, nil (or an error) only when it is empty, and every Integer element is a possible answer; for Float ranges the answer is a finite number between the ends, excluding b for a...b.", "quantifier": "all Integer and Float ends, all generator states", "why_tests_cant": "Wrong only for ends close to the limits of small Integers or doubles.", "anchors": ["monoruby/src/builtins/kernel.rs: rand", "monoruby/src/builtins/random.rs: rand"]}
{"id": "C47", "title": "sample picks distinct positions", "statement": "ary.sample(n) answers min(n, size) elements taken at pairwise distinct positions, for every generator whose draws are below the requested limit, and never indexes outside the array.", "quantifier": "all arrays, counts and generators (built-in or duck-typed)", "why_tests_cant": "Four size-dependent algorithms; off-by-one errors show only for particular draws.", "anchors": ["monoruby/src/builtins/array.rs: sample, rand_upto"]}
{"id": "C48", "title": "rationalize finds the simplest fraction", "statement": "Rational#rationalize(eps) and Float#rationalize(eps) terminate and return the fraction with the smallest denominator and numerator among all fractions within eps of the receiver.", "quantifier": "all receivers and tolerances", "why_tests_cant": "A search loop over an infinite domain; termination and minimality are universal statements.", "anchors": ["monoruby/src/value/rvalue/rational.rs: find_simplest", "monoruby/builtins/rational.rb: rationalize", "monoruby/src/builtins/numeric/float.rs: float_rationalize"]}
{"id": "C49", "title": "GC.stat counts are exact", "statement": "GC.stat(:total_allocated_objects) minus GC.stat(:total_freed_objects) is the number of live objects, and old_objects is the number of old ones, after every history of allocations and collections.", "quantifier": "all histories of allocation and collection", "why_tests_cant": "The counters drift only when whole pages are given back; the drift accumulates over history.", "anchors": ["monoruby/src/alloc.rs: gc, sweep, salvage_empty_pages, total_freed", "monoruby/src/builtins/gc.rs: stat"]}
{"id": "C50", "title": "Thread interrupts respect handle_interrupt masks", "statement": "At each check point the oldest queued kill/raise that the thread's masks permit there is delivered, and only that one; masked ones stay queued in order; a parked thread is woken by an interrupt it may take; a new thread starts with the masks in force at its creation.", "quantifier": "all queues, masks and thread states", "why_tests_cant": "Combinations of queued interrupts and masks are unbounded.", "anchors": ["monoruby/src/scheduler.rs: interrupt_timing, deliverable_index, wake_worthy, interrupt"]}
{"id": "C51", "title": "Mutex#synchronize always releases", "statement": "When the holder of a Mutex leaves synchronize (normally or by an exception, including one raised into it from another thread), it no longer holds the Mutex.", "quantifier": "all interleavings and deliveries of interrupts", "why_tests_cant": "The interrupt has to arrive at one particular safepoint.", "anchors": ["monoruby/builtins/thread.rb: Mutex#synchronize, Mutex#unlock"]}
{"id": "C52", "title": "Mutex#sleep returns holding the Mutex", "statement": "A thread that has released a Mutex in Mutex#sleep (ConditionVariable#wait) leaves the call only while holding the Mutex again, even when it is interrupted while parked or while taking the lock again.", "quantifier": "all interleavings and deliveries of interrupts", "why_tests_cant": "Kill and raise can arrive at any moment of the re-acquisition.", "anchors": ["monoruby/builtins/thread.rb: Mutex#sleep"]}
{"id": "C53", "title": "Queue wake-ups are not lost", "statement": "While a consumer is blocked in Queue#pop and the queue holds an item or is closed, some thread inside the queue's methods is able to run; likewise for a producer blocked in SizedQueue#push while there is room or the queue is closed.", "quantifier": "all interleavings of push, pop, close, clear, max=, wake-ups and interrupts", "why_tests_cant": "A lost wake-up needs one particular interleaving of the Mutex, the condition variable and the scheduler.", "anchors": ["monoruby/builtins/thread.rb: Queue, SizedQueue, ConditionVariable"]}
{"id": "C54", "title": "SizedQueue stays within max", "statement": "A push into a SizedQueue never leaves more than max items in it.", "quantifier": "all interleavings, with waits, time-outs and interrupts", "why_tests_cant": "The check and the insertion are separated by waits in which other producers run.", "anchors": ["monoruby/builtins/thread.rb: SizedQueue#push"]}
{"id": "C55", "title": "A write goes to the position reads have reached", "statement": "On an IO opened for reading and writing, write puts its bytes at the logical position (the one pos reports), and reading continues right behind them.", "quantifier": "all files, all sequences of reads, seeks and writes, all divisions of the kernel's answers", "why_tests_cant": "The file offset and the logical position differ only while bytes are read ahead, by an amount that depends on the file and the buffer.", "anchors": ["monoruby/src/value/rvalue/io.rs: write, flush, read_impl, seek", "monoruby/src/value/rvalue/io/buf.rs: IoReader"]}
{"id": "C56", "title": "Records round-trip through pack and unpack", "statement": "A sequence of values packed with a template of several directives (integers, doubles, a/A/Z strings, bit and hex strings, x, U, w, R, r, m, u, M) is what unpack returns for the same template, whenever each value fits its directive.", "quantifier": "all templates, all fitting values, all byte strings", "why_tests_cant": "The directives interact through the position; templates and values are unbounded.", "anchors": ["monoruby/src/value/rvalue/string/pack.rs: pack, unpack, Bytes"]}
{"id": "C57", "title": "Marshal.load is safe on arbitrary bytes", "statement": "Marshal.load of any byte string ends with a value whose references are all valid or with an exception; it never panics and never runs forever.", "quantifier": "all byte strings", "why_tests_cant": "The input is attacker-controlled and unbounded; lengths, link and symbol indices are read from it.", "anchors": ["monoruby/src/builtins/marshal.rs: MarshalReader"]}
{"id": "C58", "title": "Prepending a module puts it before the class everywhere", "statement": "After C.prepend(M): M and M's ancestors come before C among C's ancestors, everything else keeps its order, and every class that has C among its ancestors sees M before C.", "quantifier": "all class/module configurations reachable by include/prepend", "why_tests_cant": "Origins, propagation to includers and the walk along two chains interact over unbounded histories.", "anchors": ["monoruby/src/value/rvalue/module.rs: prepend_module", "monoruby/src/globals/store/class.rs: propagate_prepend_to_subclasses"]}
{"id": "C59", "title": "A module included into an included module reaches its includers", "statement": "If class D has module C among its ancestors, then after C.include(M) also M is among the ancestors of D.", "quantifier": "all class/module configurations reachable by include/prepend", "why_tests_cant": "Depends on the order of the includes in an unbounded history.", "anchors": ["monoruby/src/value/rvalue/module.rs: include_or_prepend_module"]}
{"id": "C60", "title": "Inline caches and compiled call sites agree with lookup", "statement": "At a call site that caches its last target (interpreter inline cache, compiled code with a salvageable version stamp), every call does what an uncached call would do at that moment, including private and protected checks.", "quantifier": "all histories of calls, callers, compilations, definitions, removals and visibility changes", "why_tests_cant": "The stale cases need particular interleavings of callers and redefinitions at one site.", "anchors": ["monoruby/src/codegen/arch/x86_64/vmgen/method_call.rs", "monoruby/src/executor.rs: find_method", "monoruby/src/globals/store/class.rs: update_inline_cache, salvage_method_unit"]}
{"id": "C61", "title": "super continues behind the running method's position", "statement": "super from a method body runs what a lookup of the ancestors behind the body's position finds, and raises if that lookup finds nothing.", "quantifier": "all hierarchies, method tables, bodies and positions", "why_tests_cant": "Bodies can occur several times in a chain, be aliased, shadowed or removed.", "anchors": ["monoruby/src/globals/store/class.rs: check_super, check_super_at, super_occurrences"]}
{"id": "C62", "title": "Integer#[] reads the bits of the infinite two's complement", "statement": "n[i] is bit i of n; n[i, len], n[i..j], n[i..] and n[..j] are the number formed by those bits; compiled code gives the same answers.", "quantifier": "all Integers, positions, lengths and ranges", "why_tests_cant": "Positions and numbers are unbounded; the wrong cases sit at word boundaries and beyond 64 bits.", "anchors": ["monoruby/src/builtins/numeric/integer.rs: index"]}
{"id": "C63", "title": "Integer#pow(e, m) is the modular power", "statement": "b.pow(e, m) is b**e modulo m with the sign of m.", "quantifier": "all bases, non-negative exponents, non-zero moduli", "why_tests_cant": "Three unbounded numbers with switches between small and big arithmetic.", "anchors": ["monoruby/src/builtins/numeric/integer.rs: pow"]}
{"id": "C64", "title": "Integer rounding to negative digits", "statement": "n.floor(-d), n.ceil(-d), n.truncate(-d) and n.round(-d) are the multiple of 10**d below, above, towards zero and nearest n; with non-negative digits n itself.", "quantifier": "all Integers and digit counts", "why_tests_cant": "Digit counts are narrowed by casts; values grow without bound.", "anchors": ["monoruby/src/builtins/numeric/integer.rs: floor, ceil, truncate, round"]}
{"id": "C65", "title": "gcd, lcm, digits, sqrt, bit_length, ceildiv and remainder", "statement": "Each gives the number its mathematical definition says.", "quantifier": "all Integers", "why_tests_cant": "Unbounded numbers of every size and sign.", "anchors": ["monoruby/src/builtins/numeric/integer.rs", "monoruby/builtins/integer.rb"]}
{"id": "C66", "title": "Printing and parsing Integers", "statement": "n.to_s(b) is the numeral of n; to_i and Integer() give n back; to_i reads the longest well-formed prefix of its text and Integer() accepts exactly the well-formed texts.", "quantifier": "all Integers, bases 2..36 and strings", "why_tests_cant": "Strings and numbers are unbounded; the wrong cases are particular combinations of sign, prefix and blanks.", "anchors": ["monoruby/src/builtins/numeric/integer.rs: to_s", "monoruby/src/builtins/string.rs: to_i", "monoruby/src/builtins/kernel.rs: parse_kernel_integer"]}
{"id": "C67", "title": "Arithmetic sequences name the terms of their progression", "statement": "size, first, last, each, to_a and stepping with a block all give the terms b, b+s, b+2s, ... that lie within the end, each exactly once and in order.", "quantifier": "all starts, ends, steps (Integers and Floats), exclusive or not, endless or not", "why_tests_cant": "Terms, counts and steps are unbounded, and the methods compute the same terms by different arithmetic.", "anchors": ["monoruby/src/builtins/arithmetic_sequence.rs", "monoruby/builtins/arithmetic_sequence.rb", "monoruby/builtins/range.rb: __range_step_numeric"]}
{"id": "C68", "title": "Slicing an array by an arithmetic sequence", "statement": "The unchecked reads stay inside the array; the result has every |s|-th element of the span, from the low end or, for a negative step, from the high end.", "quantifier": "all arrays and sequences", "why_tests_cant": "The reads are unchecked (get_unchecked): an index wrong for one combination of signs, ends and lengths is undefined behaviour, not a failed test.", "anchors": ["monoruby/src/builtins/arithmetic_sequence.rs: index_op"]}
{"id": "C69", "title": "Floats become the right Integers", "statement": "to_i and Integer() truncate, floor, ceil, truncate and round to ndigits give the multiple of 10**-ndigits their definition says, with halves as the mode says.", "quantifier": "all Floats, digit counts and modes", "why_tests_cant": "2^64 Floats; the wrong ones sit at single values and at cancellation and overflow points.", "anchors": ["monoruby/src/builtins/numeric/float.rs: toi, floor, ceil, truncate, round, round_half", "monoruby/src/builtins/kernel.rs: kernel_integer", "monoruby/src/value/coerce.rs: coerce_f64_to_int"]}
{"id": "C70", "title": "Float modulo and divmod", "statement": "a % b is a - b*floor(a/b) rounded at most once, and a.divmod(b) is [floor(a/b), a % b].", "quantifier": "all finite Floats", "why_tests_cant": "Pairs of Floats; the quotient is wrong only where a/b rounds to an integer or leaves 64 bits.", "anchors": ["monoruby/src/value/numeric.rs: ruby_mod, ruby_div_mod", "monoruby/src/builtins/numeric.rs: divmod"]}
{"id": "C71", "title": "Positional arguments reach their parameters", "statement": "Filling the positional slots gives required, optional, rest and trailing parameters the arguments the cut of the list assigns them, optional ones without argument are left to their default, a method refuses a wrong number, a block pads and drops; no slot outside is touched.", "quantifier": "all parameter lists, argument lists, frames and both argument layouts", "why_tests_cant": "The counts of four parameter kinds and of the arguments are unbounded and interact.", "anchors": ["monoruby/src/codegen/runtime/args.rs: fill_positional_args, fill_positional_args1, fill_positional_args2"]}
{"id": "C72", "title": "A call binds what it says", "statement": "An interpreted call spreads splats, merges keywords in the order written, promotes flagged Hashes, takes lone Arrays apart for blocks, and binds or raises as the parameters demand; which result is determined.", "quantifier": "all call sites, parameter lists, argument values and answers of #to_ary", "why_tests_cant": "Splats, keywords, flags and block rules combine; unusual combinations take separate paths.", "anchors": ["monoruby/src/codegen/runtime/args.rs: set_callee_frame_arguments, handle_keyword, hash_splat_and_kw_rest", "monoruby/src/bytecodegen/method_call/arguments.rs: keyword_arg"]}
{"id": "C73", "title": "Compiled calls bind like interpreted ones", "statement": "The inline argument setup of a compiled call gives the slots the values the specification gives, and every slot holds what the compiler assumes about it.", "quantifier": "all call sites accepted by is_simple_call and all parameter lists", "why_tests_cant": "Needs a hot call site with an unusual number of arguments; the wrong slot is silent.", "anchors": ["monoruby/src/codegen/jitgen/compile/method_call.rs: set_arguments", "monoruby/src/codegen/jitgen/state/slot.rs: from_caller_inner", "monoruby/src/globals/store/function.rs: apply_args, is_simple_call"]}
{"id": "C74", "title": "yield, forwarding and builtin callers bind like calls", "statement": "yield, send, g(...), implicit super in its fast, lazy and deferred forms, and builtin methods calling back give the slots the same contents as the call written out, and leave the caller's arguments and keyword Hash alone.", "quantifier": "all parameter lists, argument lists and keyword Hashes", "why_tests_cant": "Six separate implementations of one operation; differences show only for rare parameter shapes.", "anchors": ["monoruby/src/codegen/runtime/args.rs: forwarded_set_arguments_core, lazy_forward_fill, invoker_arguments_inner", "monoruby/src/codegen/runtime.rs: jit_handle_arguments_no_block_for_yield", "monoruby/src/globals/store/function.rs: forwarded_deferred_layout"]}
{"id": "C75", "title": "send runs the method it names", "statement": "obj.send(name, args) runs the body a func-call of name on obj would run, or method_missing with the name first, and binds the same arguments, whether interpreted or compiled with the site's method cache, after any history of sends, class changes and recompilations.", "quantifier": "all histories of class changes, recompilations and sends; all receivers, names and argument lists", "why_tests_cant": "The compiled cache is keyed by name only; a wrong hit needs a particular order of classes, names and recompilations at one site.", "anchors": ["monoruby/src/codegen/arch/x86_64/compile/method_call.rs: object_send_inline, object_send_inner, object_send_splat_arg0", "monoruby/src/builtins/kernel.rs: send, object_send", "monoruby/src/codegen/runtime/args.rs: set_frame_arguments_send_splat"]}
{"id": "C76", "title": "JSON.generate writes JSON that says what it was given", "statement": "For every value JSON has a place for, JSON.generate's text is derivable in the RFC 8259 grammar with that value as its meaning, and JSON.parse of it gives the value back.", "quantifier": "all nestings of nil, booleans, Integers, finite Floats, Strings, Arrays and Hashes", "why_tests_cant": "All Strings, all nestings and the Integers at the edges of the fixnum range cannot be enumerated.", "anchors": ["monoruby/src/builtins/json.rs: generate, generate_string, parse_value"]}
{"id": "C77", "title": "JSON.parse reads every JSON text and nothing else", "statement": "The native parser gives every RFC 8259 text the meaning the grammar gives it, refuses every proper prefix of a text that is not a number, always ends, and accepts only JSON.", "quantifier": "all byte strings", "why_tests_cant": "The set of texts is infinite; wrong acceptances show only for malformed input.", "anchors": ["monoruby/src/builtins/json.rs: JsonParser, parse_string_raw, parse_number, parse_unicode_escape", "monoruby/stdlib/json.rb: JSON.parse"]}
{"id": "C78", "title": "JSON layouts, limits and ascii_only", "statement": "JSON::State#generate writes, under every layout, JSON that says what it was given; it raises NestingError exactly above max_nesting, never writes NaN or Infinity unless allowed, and only ASCII when ascii_only is set.", "quantifier": "all states and all values", "why_tests_cant": "Layouts, nesting and escaping combine; surrogate pairs and limits are rarely tested together.", "anchors": ["monoruby/stdlib/json/ext/generator.rb: State#generate, generate_json, utf8_to_json, utf8_to_json_ascii", "monoruby/stdlib/json.rb: pretty_generate, dump, fast_generate"]}
{"id": "C79", "title": "Reading an instance variable gives what was assigned", "statement": "instance_variable_get, attr_reader, interpreted and compiled @x give the last value assigned under that name to that object, by any route, and nil if there is none; assignments to frozen objects raise.", "quantifier": "all histories of classes, objects, singleton classes, caches, compiled methods, frames and copies", "why_tests_cant": "Slots are shared by name tables, inline caches and compiled code that is not checked again; the orders in which they are filled are unbounded.", "anchors": ["monoruby/src/value/rvalue.rs: get_ivar_by_ivarid, set_ivar_by_ivarid, extend_ivar", "monoruby/src/globals/store/class/instance_var.rs", "monoruby/src/codegen.rs: get_instance_var_with_cache, set_instance_var_with_cache", "monoruby/src/codegen/jitgen/compile/variables.rs", "monoruby/src/codegen/jitgen/compile/method_call.rs: attr_reader, attr_writer"]}
{"id": "C80", "title": "Compiled accesses stay inside the object", "statement": "The unchecked loads and stores of compiled code never touch memory outside the object's inline slots and table, and compiling never ends the process.", "quantifier": "all histories", "why_tests_cant": "A read past the table usually returns something harmless.", "anchors": ["monoruby/src/codegen/arch/x86_64/compile/variables.rs: load_ivar_heap, store_ivar_heap_inner", "monoruby/src/codegen/arch/x86_64/compile/mod.rs: emit_preparation", "monoruby/src/value/rvalue/ivar_table.rs"]}
{"id": "C81", "title": "Copies have the variables of the original", "statement": "dup and clone give an object with the same instance variables and leave every other object as it is.", "quantifier": "all histories and objects", "why_tests_cant": "The layout of a singleton class departs from its real class only in particular orders of assignments.", "anchors": ["monoruby/src/builtins/kernel.rs: dup, clone", "monoruby/src/globals/store/class.rs: get_singleton, clone_singleton_class, ClassInfo::copy"]}
{"id": "C82", "title": "Compiled programs call the methods the interpreter calls", "statement": "Whatever is compiled, specialized, inlined, recompiled or abandoned at whatever moment, a program calls the same functions on the same receivers in the same order, leaves the same objects and returns the same value as when every call looks its method up; and compiled code ends only if the interpreter does.", "quantifier": "all programs, inputs, profiles and compilation decisions", "why_tests_cant": "The outcome depends on when the compiler runs, what the call sites have seen, and where in a running method a redefinition happens.", "anchors": ["monoruby/src/codegen/jitgen/compile/method_call.rs: compile_method_call, guard_class_version, send, send_specialized", "monoruby/src/codegen/compiler.rs: recompile_method, salvage_specialized, jit_recompile_method_with_recovery", "monoruby/src/codegen.rs: chain_deopt", "monoruby/src/globals/store/class.rs: salvage_method_unit", "monoruby/src/codegen/jitgen/state.rs: Invariants"]}
{"id": "C83", "title": "Units that count as current are current", "statement": "After any completed call, every registered compilation whose version word equals the class version was compiled from method resolutions that still hold, and the code a call enters is a compilation of that body for that class.", "quantifier": "all programs, including singleton classes, fibers and redefining conversions, and all compilation decisions", "why_tests_cant": "A word written for the wrong unit shows only when that unit is entered after another redefinition.", "anchors": ["monoruby/src/codegen/compiler.rs: recompile_method, salvage_specialized, jit_recompile_method_with_recovery", "monoruby/src/globals/store/class.rs: salvage_method_unit", "monoruby/src/codegen/jitgen.rs: class version word"]}
{"id": "C84", "title": "Exits run the ensure bodies they cross", "statement": "However a program leaves a begin - falling through, by an exception, break, next, redo, retry, return, throw, a return or break out of a block - the ensure bodies it leaves run exactly once, innermost first, the clauses tried are those of the begins whose bodies raised, an ensure body that ends otherwise than normally replaces the exit, and control arrives where the exit leads with its value.", "quantifier": "all programs of nested begins, loops, blocks and calls, and all outcomes of their actions", "why_tests_cant": "Ensure bodies are copied in front of every exit and looked up in exception tables, and unwindings are parked per frame address; what goes wrong depends on which exit crosses which nesting.", "anchors": ["monoruby/src/bytecodegen/statement.rs: gen_begin", "monoruby/src/bytecodegen.rs: gen_loop_pending_ensures, gen_all_pending_ensures", "monoruby/src/codegen/jit_module.rs: handle_error", "monoruby/src/executor.rs: defer_unwind, finish_ensure, discard_deferred_unwind"]}
{"id": "C85", "title": "Simple ensure bodies are safe everywhere", "statement": "In a program whose ensure bodies only perform actions that cannot raise, and whose begins are nested in the documented simple way, every exit behaves as in C84, in every run.", "quantifier": "all programs satisfying the condition and all their runs", "why_tests_cant": "The condition is on the text; the runs are unbounded.", "anchors": ["monoruby/src/bytecodegen/statement.rs: gen_begin", "monoruby/src/codegen/jit_module.rs: handle_error"]}
{"id": "C86", "title": "Array reading", "statement": "Indexing, slicing by start and length or by range, first, last, take, drop, fetch, rotate, *, transpose, product, bsearch and flatten return what the Ruby documentation says: elements counted from the end for negative arguments, nil outside, clipped at the end, IndexError or ArgumentError where documented, and never a panic.", "quantifier": "all arrays, all 64 bit indices, lengths, ranges, counts and levels, all heaps of nested arrays", "why_tests_cant": "Indices near 2^63, mixed signs, empty rows and recursive arrays are outside what examples cover.", "anchors": ["monoruby/src/value/rvalue/array.rs: get_elem1, get_elem2, get_array_index", "monoruby/src/builtins/array.rs: rotate, mul, transpose, product, flatten, bsearch"]}
{"id": "C87", "title": "Array writing", "statement": "Assignment to an index, a slice or a range, insert, delete_at, slice!, fill, push, pop, shift, unshift, concat, replace, delete and compact! change exactly the elements documented, pad with nil, return what is documented, raise without changing anything, and change no frozen array.", "quantifier": "all arrays, indices, lengths, ranges, right-hand sides (arrays, the array itself, objects with to_ary, others)", "why_tests_cant": "The arithmetic of starts, ends and lengths goes through casts that wrap only at extreme values.", "anchors": ["monoruby/src/value/rvalue/array.rs: set_index, set_index2, retain", "monoruby/src/builtins/array.rs: index_assign, insert, fill, slice_, delete_at, pop, shift"]}
{"id": "C88", "title": "Iterating while the callback changes the array", "statement": "Whatever a block or a called operator does to the array being iterated, no method reads outside it or freed memory or panics; with callbacks that leave the array alone each element is visited once in order, and filters keep exactly the elements asked for, also when the block raises half-way.", "quantifier": "all arrays and all callbacks, including those that change the array", "why_tests_cant": "The callback is arbitrary code; the unsafe cases need it to shorten or reallocate the array at the right moment.", "anchors": ["monoruby/src/builtins/array.rs: each, retain_with_block, fill, product_inner, zip, min, max, minmax, inject"]}
{"id": "C89", "title": "Compiled array operations agree with the interpreter", "statement": "The machine code for a[i], a[i] = v, <<, size, slice assignment and rotate! has the same result and effect as the interpreted method, whether the elements are inline or on the heap.", "quantifier": "all array objects, indices and values", "why_tests_cant": "The code differs for inline and heap storage, for positive and negative indices and for frozen objects; only the compiled path after warm-up is concerned.", "anchors": ["monoruby/src/codegen/arch/x86_64/compile/index.rs", "monoruby/src/codegen/jitgen/state/index.rs", "monoruby/src/builtins/array.rs: array_shl, array_slice_assign, array_rotate_"]}
{"id": "C90", "title": "The classification a string carries is true of its bytes", "statement": "A string marked as ASCII has only ASCII bytes, a UTF-8 string marked as valid is well-formed UTF-8, and valid_encoding? and ascii_only? answer what an examination of the bytes would, after any sequence of string operations, interpreted or compiled.", "quantifier": "all histories of string operations, all bytes and encodings", "why_tests_cant": "The mark is maintained separately by each operation and by machine code; a wrong mark shows only in later operations, where the bytes are used as UTF-8 without a check.", "anchors": ["monoruby/src/value/rvalue/string.rs: classify, code_range, check_utf8, extend, propagated_cr, bytesplice_with", "monoruby/src/codegen/arch/x86_64/compile/builtin.rs: string_shl, string_setbyte", "monoruby/src/codegen/runtime.rs: concatenate_string_inner"]}
{"id": "C91", "title": "Characters and parts of strings are those of the encoding", "statement": "length counts the characters of the encoding, a byte that starts no character counting as one; s[i], s[i, n], s[a..b] and byteslice are the characters or bytes at those positions or nil; valid_encoding? holds exactly for strings of whole characters.", "quantifier": "all byte sequences in every encoding, all 64-bit indices, lengths and ranges", "why_tests_cant": "Eleven kinds of encoding, ill-formed input at every position, fast paths by classification and arithmetic that wraps for extreme indices.", "anchors": ["monoruby/src/value/rvalue/string.rs: CharByteIter, char_length, conv_char_index, get_range, string_substring", "monoruby/src/builtins/string.rs: index, byteslice"]}
{"id": "C92", "title": "Joining and comparing strings of different encodings", "statement": "+, << and interpolation concatenate the bytes in the encoding given by Ruby's compatibility rule and raise if there is none, compiled or not; == holds for equal bytes in compatible encodings; <=> orders by bytes, is antisymmetric and is 0 exactly when == holds.", "quantifier": "all pairs and sequences of strings", "why_tests_cant": "The rule depends on encodings, emptiness and content of both sides, is implemented four times, and consults cached classifications left by earlier operations.", "anchors": ["monoruby/src/value/rvalue/string.rs: Encoding::compatible, compatible_encoding, extend", "monoruby/src/builtins/string.rs: string_eq_bool, string_byte_then_encoding_cmp, shl_inner", "monoruby/src/codegen/runtime.rs: concatenate_string_inner", "monoruby/src/codegen/arch/x86_64/compile/builtin.rs"]}
{"id": "C93", "title": "Sharing of string buffers is not seen", "statement": "Strings that share a byte buffer behave as if each had its own: whatever is sliced, copied, mutated, frozen or collected, every live string reads the bytes a program without sharing would read, no freed buffer is used and none is kept without a user.", "quantifier": "all histories of slice, snapshot, dup, clone, mutation, replace, freeze, collection and calls", "why_tests_cant": "The lifetime of a buffer depends on the order of slices, mutations and collections; a dangling slice often still reads the old bytes.", "anchors": ["monoruby/src/value/rvalue/string.rs:671-806", "monoruby/src/value/rvalue/string.rs:1298-1370", "monoruby/src/value/rvalue/string.rs:2427-2600", "monoruby/src/builtins/io.rs:3836-4081", "monoruby/src/builtins/fiddle.rs:179-191"]}
{"id": "C94", "title": "A constant reference gives the constant", "statement": "A reference to a constant gives the value that lookup in the lexical scopes, the ancestors and Object gives at that moment, whatever was cached or compiled before.", "quantifier": "all programs, lexical contexts, hooks and histories of assignment, removal, include, definition, autoload, visibility, reads and compilations", "why_tests_cant": "The value is wrong only for the one combination of a site that was read before and a change that is not announced.", "anchors": ["monoruby/src/executor/constants.rs", "monoruby/src/globals/store/class/constants.rs", "monoruby/src/executor.rs:2120-2250", "monoruby/src/codegen/runtime.rs:1333-1408", "monoruby/src/globals.rs:1480-1552"]}
{"id": "C95", "title": "Compiled code does not go on with an old constant", "statement": "Code compiled with the values of constants gives, at each reference, the value the constant has at that moment, however the guards are shared, skipped or re-validated.", "quantifier": "all units, instruction sequences and effects of calls", "why_tests_cant": "A skipped guard is seen only if a constant changes between two references of the same compiled run.", "anchors": ["monoruby/src/codegen/jitgen/compile/variables.rs:73-240", "monoruby/src/codegen/jitgen/state.rs:212-222", "monoruby/src/globals/store/class.rs:2643-2765", "monoruby/src/codegen/jitgen/compile.rs:340-430"]}
{"id": "C96", "title": "defined? of a constant agrees with reading it", "statement": "defined?(X) is true just when reading X would give a constant or start an autoload.", "quantifier": "all tables, lexical contexts, prefixes and bases", "why_tests_cant": "The two walks are separate code and differ only for private, top-level or autoloaded classes on the way.", "anchors": ["monoruby/src/executor/constants.rs", "monoruby/src/globals/store/class/constants.rs"]}
{"id": "C97", "title": "Generated code evaluates from left to right", "statement": "The bytecode generated for an expression makes the calls that evaluation from left to right makes, with the same arguments and in the same order, and ends with the same value or exception and the same captured variables.", "quantifier": "all programs of local variables, operators, calls, safe navigation, assignments (operator, logical, attribute, index, multiple, splat), conditionals, loops with break and next, and return; all behaviours of called methods; all captured variables", "why_tests_cant": "A wrong order is seen only if the operands interfere; the cases are combinations of two constructs and a way the value is used.", "anchors": ["monoruby/src/bytecodegen/expression.rs", "monoruby/src/bytecodegen/binary.rs", "monoruby/src/bytecodegen/statement.rs", "monoruby/src/bytecodegen.rs:1143-1160", "monoruby/src/bytecodegen.rs:1599-1980", "monoruby/src/bytecodegen/method_call.rs"]}
{"id": "C98", "title": "Jumps in generated code have one target", "statement": "No label stands twice in the code generated for an expression, and every jump has its label in the code.", "quantifier": "all expressions of these forms, nested in any way", "why_tests_cant": "Label numbers collide or are lost only in some nestings.", "anchors": ["monoruby/src/bytecodegen/expression.rs", "monoruby/src/bytecodegen/binary.rs", "monoruby/src/bytecodegen/statement.rs"]}
{"id": "C99", "title": "Blocks and lambdas share the variables they were written among", "statement": "Reads, writes, yields, block parameters, block_given?, blocks passed on, Procs and lambdas called at any time, and the frame a return goes back to are as if every frame was an environment that lives on and a block its code with its environment, although frames are in the stack until something needs them and then move.", "quantifier": "all sequences of reads, writes, calls with every kind of block, builtins that keep their block, yields, Procs, lambdas, block parameters at every level and returns", "why_tests_cant": "A frame moves at different moments and leaves old references behind; only chains of moves, passed on blocks and returns make them meet.", "anchors": ["monoruby/src/executor/frame.rs:234-318", "monoruby/src/executor/frame.rs:606-707", "monoruby/src/executor.rs:3725-4092", "monoruby/src/executor.rs:4515-4586", "monoruby/src/codegen/runtime.rs:535-640", "monoruby/src/codegen/arch/x86_64/jit_module.rs:450-590", "monoruby/src/codegen/arch/x86_64/invoker.rs:553-595"]}
{"id": "C100", "title": "Bindings keep the block of their method, a block parameter is one object", "statement": "Code run in a Binding sees the variables and the block of the frame it was made in, also after that frame has returned; reading a block parameter twice gives the same object.", "quantifier": "all such sequences with Bindings", "why_tests_cant": "The block is lost only after the method has returned.", "anchors": ["monoruby/src/executor.rs:4080-4092", "monoruby/src/value/rvalue.rs:2300", "monoruby/src/codegen/runtime.rs:564-638"]}
{"id": "C101", "title": "Fiber#resume and Fiber.yield follow Ruby's rules in every history", "statement": "Whichever fibers are made, resumed, yield, end with a value or an exception, are raised into or killed, control goes to the fiber Ruby's rules name, with the value or the exception they name, a forbidden resume gives the right FiberError, and nothing crashes.", "quantifier": "all histories of new, resume, yield, return, raise, kill and alive? over any number of fibers (also the internal ones of enumerators), where a fiber is killed at most once, while waiting for no other, and then only ends", "why_tests_cant": "The links between fibers depend on the whole history; a stale link only shows when some later fiber ends.", "anchors": ["monoruby/src/value/rvalue/fiber.rs:150-612", "monoruby/src/builtins/fiber.rs:161-503", "monoruby/src/executor.rs:1960-2127", "monoruby/src/codegen/arch/x86_64/invoker.rs:133-207"]}
{"id": "C102", "title": "Fiber#transfer follows Ruby's rules in every history", "statement": "The same with Fiber#transfer: a fiber that ends returns to the fiber that resumed it, or to the innermost fiber the root is waiting for; resume and transfer are refused exactly when Ruby refuses them.", "quantifier": "all such histories with transfer", "why_tests_cant": "It takes several switches in a particular order to leave a stale target behind.", "anchors": ["monoruby/src/value/rvalue/fiber.rs:238-470", "monoruby/src/executor.rs:2064-2127", "monoruby/src/builtins/fiber.rs:377-503"]}
{"id": "C103", "title": "sprintf writes integers as Ruby does", "statement": "For the directives d, i, u, b, B, o, x and X the text written is the sign, mark, zeros and digits of the number in the base (a negative number without sign flags as its complement behind two dots), with the precision and width of Ruby.", "quantifier": "all integers of any size, all combinations of the flags, all widths and precisions", "why_tests_cant": "Flags, width, precision and sign combine; numbers have unbounded size.", "anchors": ["monoruby/src/executor/format.rs:270-400", "monoruby/src/executor/format.rs:600-722", "monoruby/src/executor/format.rs:1384-1575"]}
{"id": "C104", "title": "sprintf reads directives and takes arguments as Ruby does", "statement": "A format is read as the directives it was written from; each directive gets the arguments Ruby's rules name (in order or by number, not both), also for widths and precisions, and errors come exactly where Ruby has them.", "quantifier": "all formats, all lists of arguments, arbitrary conversions", "why_tests_cant": "The readings of digits as flag, number of an argument, width or precision depend on what follows.", "anchors": ["monoruby/src/executor/format.rs:803-1327"]}
{"id": "C105", "title": "sprintf cuts and fills text by characters", "statement": "For the directives s and p the text is cut to as many characters as the precision and filled with spaces to as many as the width.", "quantifier": "all texts, widths and precisions", "why_tests_cant": "Tests with ASCII text do not tell bytes from characters.", "anchors": ["monoruby/src/executor/format.rs:1357-1383"]}
{"id": "C106", "title": "sprintf %a writes the float, or the nearest with the digits asked for", "statement": "Reading the text of %a as a number in base 16 gives the float itself, with no zero at the end, or with a precision a number at most half a unit of the last digit away.", "quantifier": "all finite floats but zero, all precisions, both cases of letters", "why_tests_cant": "There are 2^64 floats; the carry is only lost for some.", "anchors": ["monoruby/src/executor/format.rs:365-500"]}
{"id": "C107", "title": "String#tr and tr_s translate as Ruby's sets say, in every path", "statement": "Each character of the receiver in the first set becomes the one in its last place's position of the second, the last one repeating; a caret turns the set around; an empty replacement deletes; tr_s leaves out a translated character behind a translated one that became the same; and whether anything was translated is reported.", "quantifier": "all receivers, sets and replacements, UTF-8 and other encodings, ASCII and not", "why_tests_cant": "There are three loops chosen by the content, and sets mix escapes, ranges, repeats and carets.", "anchors": ["monoruby/src/builtins/string.rs:6466-6996"]}
{"id": "C108", "title": "String#count, delete and squeeze take the characters in all the sets, in every path", "statement": "A character counts when it is in each set, by a bitmap, a tree or a negation alike; squeeze leaves out a character behind the same one.", "quantifier": "all receivers and lists of sets, UTF-8 and other encodings, ASCII and not", "why_tests_cant": "Three paths times the intersections of arbitrary sets.", "anchors": ["monoruby/src/builtins/string.rs:6342-6430", "monoruby/src/builtins/string.rs:7000-7295"]}
{"id": "C109", "title": "String#succ adds one to the number its letters and digits write", "statement": "Read from the right, the letters and digits that take part are the digits of a number in their own alphabets; succ writes the next number, puts one more character in front on overflow, and leaves the others alone; a string without letters and digits gets its last character incremented.", "quantifier": "all ASCII strings of any length", "why_tests_cant": "Carries run through mixed alphabets and gaps of any length.", "anchors": ["monoruby/src/builtins/string.rs:1570-1713"]}
{"id": "C110", "title": "External iteration of an Enumerator behaves as a cursor over the producer", "statement": "next and peek show the event the producer produces after the answers given so far, peek does not move, feed is the answer of the pending yield, the end is reported again and again with the producer's result, an exception starts the iteration anew, and rewind forgets everything.", "quantifier": "all producers and all sequences of next, next_values, peek, peek_values, rewind and feed", "why_tests_cant": "The lookahead, the fed value, the finished state and the fiber interact in histories of any length.", "anchors": ["monoruby/src/value/rvalue/enumerator.rs:176-305", "monoruby/src/value/rvalue/fiber.rs:377-397", "monoruby/src/builtins/enumerator.rs:210-240", "monoruby/src/builtins/enumerator.rs:465-530"]}
{"id": "C111", "title": "The fields of a Time follow the Gregorian calendar", "statement": "The fields shown by an instant advance second by second as the calendar says; Time.gm and Time.local with given fields yield the instant that shows them, with days past the end of a short month and second 60 carried over, and refuse fields out of range.", "quantifier": "all instants, all field values, all zones", "why_tests_cant": "Calendar arithmetic goes wrong at single days in four centuries, and the zone lookup at single hours of a year.", "anchors": ["monoruby/src/builtins/time.rs:1643-1845", "monoruby/src/builtins/time.rs:1892-1928", "monoruby/src/builtins/time.rs:2035-2079"]}
{"id": "C112", "title": "Time arithmetic is exact and comparison orders instants", "statement": "Adding and subtracting a number moves the instant by its whole nanoseconds, the difference of two times is the distance of their instants, comparison and hash depend on the instant alone, and floor, round and ceil give the multiple of the unit on the side asked for.", "quantifier": "all times, all rational numbers, all precisions from 0 to 9", "why_tests_cant": "The carries between seconds and nanoseconds and the 64-bit limits depend on values across the whole range.", "anchors": ["monoruby/src/builtins/time.rs:715-769", "monoruby/src/builtins/time.rs:1549-1625", "monoruby/src/builtins/time.rs:2022-2028", "monoruby/src/builtins/time.rs:2740-2798", "monoruby/src/builtins/time.rs:2921-2931"]}
{"id": "C113", "title": "Marshal gives back the same Time", "statement": "Loading what was dumped from a Time gives a time with the same instant, the same nanoseconds, the same offset and the same UTC flag.", "quantifier": "all times, all local zones", "why_tests_cant": "The fields are packed into bits and the instant is rebuilt through the local zone, so failures depend on the year and on the zone of the machine.", "anchors": ["monoruby/src/builtins/time.rs:491-620", "monoruby/src/builtins/marshal.rs:537-562", "monoruby/src/builtins/marshal.rs:1669-1722"]}
{"id": "C114", "title": "Texts of offsets and times are read as they are written", "statement": "Every offset text of the documented forms and every zone letter is read as its value and nothing else is; strftime writes offsets and sub-seconds with the digits and widths asked for; Time.new reads what xmlschema writes as the same instant.", "quantifier": "all texts, all offsets, all widths, all times", "why_tests_cant": "Parsing and printing are inverse only if every digit, sign, width and padding agree, for every value.", "anchors": ["monoruby/src/builtins/time.rs:642-687", "monoruby/src/builtins/time.rs:1254-1318", "monoruby/src/builtins/time.rs:1367-1540", "monoruby/src/builtins/time.rs:2407-2514"]}
{"id": "C115", "title": "Slices of an IO::Buffer share memory with it", "statement": "A slice shows the part of its buffer it was cut from; bytes written through one buffer are seen through every other exactly where they share memory, and through none elsewhere; no method reaches outside the memory.", "quantifier": "all histories of buffers, slices, copies, Strings, frees, transfers and resizes", "why_tests_cant": "Which slices overlap and which have been invalidated depends on the whole history of the program.", "anchors": ["monoruby/src/value/rvalue/io_buffer.rs:141-224", "monoruby/src/builtins/io_buffer.rs:400-422", "monoruby/src/builtins/io_buffer.rs:690-900"]}
{"id": "C116", "title": "Locks and snapshots of an IO::Buffer hold", "statement": "A locked buffer keeps its memory and size until it is unlocked; the snapshot behind IO::Buffer.for is never written; free, transfer and resize do to the bytes what they say and invalidate slices.", "quantifier": "all histories", "why_tests_cant": "A single unguarded path, taken at any later time through any other buffer, breaks the guarantee.", "anchors": ["monoruby/src/builtins/io_buffer.rs:493-566", "monoruby/src/builtins/io_buffer.rs:624-645", "monoruby/src/builtins/io_buffer.rs:770-850", "monoruby/src/value/rvalue.rs:1536-1575"]}
{"id": "C117", "title": "Typed values of an IO::Buffer are stored and read back exactly", "statement": "Numbers are stored modulo their width in the byte order asked for and read back as the same number; masks, lists of values and comparison follow the bytes; out-of-range arguments are refused.", "quantifier": "all values, widths, byte orders, offsets and contents", "why_tests_cant": "Sign, width and byte order combine over the full range of numbers and offsets.", "anchors": ["monoruby/src/builtins/io_buffer.rs:116-345", "monoruby/src/builtins/io_buffer.rs:1013-1036", "monoruby/src/builtins/io_buffer.rs:1174-1253"]}
{"id": "C118", "title": "A range covers exactly the numbers between its ends", "statement": "cover? of a number, overlap? and the emptiness test agree with the set of numbers between the ends; cover? of a range is true for every range with elements all of whose numbers are in the receiver, and false if some integer is not.", "quantifier": "all ranges over Integers, Floats, infinities and open ends, all numbers", "why_tests_cant": "Ends of mixed kinds, open or excluded, meet in every combination; the relevant numbers are infinitely many.", "anchors": ["monoruby/builtins/range.rb:394-428", "monoruby/builtins/range.rb:650-730"]}
{"id": "C119", "title": "Iterating a range visits exactly its integers, in order", "statement": "each, reverse_each, to_a, step, first(n), last(n), size, count, map, min, max and max(n) agree with the set of integers in the range: each once, in order, none left out, ending exactly if the range is bounded.", "quantifier": "all ranges with Integer begin and numeric or open end", "why_tests_cant": "A wrong bound shows only for particular ends (excluded, fractional, huge).", "anchors": ["monoruby/builtins/range.rb:4-181", "monoruby/builtins/range.rb:306-392", "monoruby/builtins/range.rb:814-846", "monoruby/builtins/range.rb:1011-1042", "monoruby/src/builtins/range.rs:192-262", "monoruby/src/builtins/range.rs:587-658", "monoruby/src/builtins/range.rs:842-932"]}
{"id": "C120", "title": "Range#bsearch finds the element it should", "statement": "For a block that turns true once, the least element for which it is true; for a block of signs, an element where it is zero; nil exactly if there is none; it ends after logarithmically many calls. For Floats the order of the keys is the order of the values.", "quantifier": "all monotone blocks, all Integer ranges with or without ends, all pairs of Floats", "why_tests_cant": "The block is an arbitrary function and the range may be unbounded.", "anchors": ["monoruby/builtins/range.rb:499-648"]}
{"id": "C121", "title": "combination and repeated_combination yield each choice once, in order", "statement": "The rows yielded are exactly the increasing (not decreasing) rows of n positions, each once, in lexicographic order; the size of the enumerator is their number; what the block raises leaves the method.", "quantifier": "all array lengths, all Integers n, all blocks", "why_tests_cant": "The state machine over positions must be right at every carry; the number of rows grows beyond what can be enumerated.", "anchors": ["monoruby/builtins/array.rb:282-325", "monoruby/builtins/array.rb:598-646"]}
{"id": "C122", "title": "permutation and repeated_permutation yield each arrangement once, in order", "statement": "The rows yielded are exactly the rows of n different (any) positions, each once, in lexicographic order; the size of the enumerator is their number; the block cannot disturb it.", "quantifier": "all array lengths, all Integers n, all changes of the receiver's size", "why_tests_cant": "The cycle counters interact with the rotated index array; a slip shows only at particular lengths.", "anchors": ["monoruby/builtins/array.rb:369-455", "monoruby/builtins/array.rb:556-596"]}
{"id": "C123", "title": "product gives the cartesian product and bsearch the element it should", "statement": "product yields the rows of the product in order whatever the block does to the arrays. bsearch finds the first element for which the block is true, or an element for which it is 0; it always ends.", "quantifier": "all arrays, all monotone blocks", "why_tests_cant": "The block is an arbitrary function, and the search path depends on the length.", "anchors": ["monoruby/src/builtins/array.rs:3658-3720", "monoruby/builtins/array.rb:166-207", "monoruby/builtins/array.rb:327-368"]}
{"id": "C124", "title": "The slicing methods of Enumerable cut where they should and lose nothing", "statement": "each_slice, each_cons, chunk, chunk_while, slice_when, slice_before and slice_after give exactly the slices Ruby documents, in order, and their concatenation is the receiver; the size of each_slice is the number of slices.", "quantifier": "all receivers, all blocks and patterns, all sizes", "why_tests_cant": "The block is an arbitrary function, and the places where a slice ends interact with the end of the receiver.", "anchors": ["monoruby/builtins/enumerable.rb:103-117", "monoruby/builtins/enumerable.rb:413-508", "monoruby/builtins/enumerable.rb:729-740", "monoruby/builtins/enumerable.rb:1050-1110"]}
{"id": "C125", "title": "The selecting methods of Enumerable pick the right elements in the right order", "statement": "take, partition, group_by, uniq, min, max, minmax and their _by forms, zip, cycle and sum give what Ruby documents: the first of equals, groups in order of their keys, an exact or compensated sum.", "quantifier": "all receivers, blocks, orders and Floats", "why_tests_cant": "Ties, repeated keys and rounding show only for particular receivers; there is no bound on their length.", "anchors": ["monoruby/builtins/enumerable.rb:246-260", "monoruby/builtins/enumerable.rb:342-370", "monoruby/builtins/enumerable.rb:510-582", "monoruby/builtins/enumerable.rb:608-637", "monoruby/builtins/enumerable.rb:742-862", "monoruby/builtins/enumerable.rb:887-1000"]}
{"id": "C126", "title": "Comparable follows <=>", "statement": "The operators, clamp and between? are what <=> says; without an order they raise ArgumentError, while == is false and != is true; exceptions of <=> pass.", "quantifier": "all answers and exceptions of <=>, all orders", "why_tests_cant": "<=> is an arbitrary method, which may be asymmetrical or fail.", "anchors": ["monoruby/builtins/comparable.rb:1-105"]}
{"id": "C127", "title": "Set operations are those of mathematics", "statement": "Set.new, add, delete, union, difference, intersection and symmetric difference give a set without duplicates whose members are exactly those of the operation on the operands, for eql? and for identity, of the class of the receiver; add? and delete? tell whether anything changed.", "quantifier": "all sets, all equivalences eql?, all arguments", "why_tests_cant": "Membership is quantified over all objects; equal objects that are not identical must be told apart by some sets and not by others.", "anchors": ["monoruby/src/builtins/set.rs:100-258", "monoruby/src/builtins/set.rs:312-340", "monoruby/src/builtins/set.rs:496-622", "monoruby/builtins/set.rb:4-23"]}
{"id": "C128", "title": "Set comparisons are inclusion, and equal sets have equal hashes", "statement": "subset?, superset? and their proper forms, ==, <=>, intersect? and disjoint? say what inclusion of members says, although they look at sizes first; sets that are == have the same hash whatever their insertion order.", "quantifier": "all pairs of sets without duplicates, all hashes that respect eql?", "why_tests_cant": "The shortcut by size is right only because no set has duplicates, which is an invariant of all histories.", "anchors": ["monoruby/src/builtins/set.rs:631-894", "monoruby/src/builtins/set.rs:1425-1447"]}
{"id": "C129", "title": "Set changes in place and copies keep what they should", "statement": "merge, subtract, replace, delete_if, keep_if, select!, reject! and collect! leave exactly the right members, in order and without duplicates; dup gives an equal set of the same class; divide groups by equal answers; reset makes changed elements findable.", "quantifier": "all sets, blocks and arguments", "why_tests_cant": "Copies go through intermediate tables whose way to compare differs only for equal objects that are not identical.", "anchors": ["monoruby/src/builtins/set.rs:72-84", "monoruby/src/builtins/set.rs:409-488", "monoruby/src/builtins/set.rs:909-1084", "monoruby/src/builtins/set.rs:1361-1416"]}
{"id": "C130", "title": "A lazy chain gives what the eager methods give", "statement": "For every chain of map, flat_map, select, reject, filter_map, grep, grep_v, compact, uniq, take, take_while, drop, drop_while, with_index and zip, force gives the elements that the methods of Enumerable give one after the other.", "quantifier": "all chains of any length, all sources, all blocks", "why_tests_cant": "Chains nest blocks with breaks and local state of each run; their combinations are unbounded.", "anchors": ["monoruby/builtins/lazy.rb:78-330", "monoruby/builtins/lazy.rb:360-371"]}
{"id": "C131", "title": "A lazy chain asks its source for no more than it needs", "statement": "first(n) and take(n) ask for the shortest part of the source that has n elements, take(0) for nothing, take_while for one element that fails; what they give does not depend on the rest of the source, which may be endless.", "quantifier": "all chains, all sources, all n", "why_tests_cant": "The least part of the source depends on all blocks of the chain; an endless source cannot be tried to its end.", "anchors": ["monoruby/builtins/lazy.rb:178-230", "monoruby/builtins/enumerable.rb:641-670"]}
{"id": "C132", "title": "The size of a lazy chain is the number of its elements", "statement": "size of a chain is nil or the number of elements it gives, and the one Ruby gives.", "quantifier": "all chains, all sources", "why_tests_cant": "Sizes are computed without running the blocks, stage by stage.", "anchors": ["monoruby/builtins/lazy.rb:104-330"]}
{"id": "C133", "title": "Monitor keeps threads apart and is re-entrant", "statement": "At most one thread is inside a Monitor at any time; a thread may enter again and leaves after as many exits; exit without having entered raises ThreadError; wait leaves the monitor while it waits.", "quantifier": "all interleavings of calls of all threads", "why_tests_cant": "Contention depends on the timing of thread switches.", "anchors": ["monoruby/builtins/monitor.rb:9-100"]}
{"id": "C134", "title": "Struct.new of a class fills the members as Ruby does", "statement": "new of a Struct class sets the members from positional arguments, keywords or one Hash as keyword_init: says, fills up with nil, and raises ArgumentError for too many arguments and unknown names.", "quantifier": "all classes, positional arguments and keywords", "why_tests_cant": "Positional arguments, keywords, keyword_init: and inheritance combine freely.", "anchors": ["monoruby/src/builtins/struct_class.rs:293-452"]}
{"id": "C135", "title": "Struct's accesses read and write the slots", "statement": "[], []=, to_a, to_h and values_at read and write the slot that an index or a name means, leave the others alone, and raise IndexError, NameError or FrozenError otherwise.", "quantifier": "all objects, indices, names and ranges", "why_tests_cant": "Indices, ranges and names of members have no bound.", "anchors": ["monoruby/builtins/struct.rb:4-123"]}
{"id": "C136", "title": "Data objects are made and copied from exactly their members", "statement": "new and with of a Data class take exactly the members, by position or by name, and raise ArgumentError for missing and unknown ones; new of to_h is the same object; with changes only what is given; deconstruct_keys reads the keys before the first unknown one.", "quantifier": "all members, arguments, keywords and lists of keys", "why_tests_cant": "Arguments, names and redefined methods combine freely.", "anchors": ["monoruby/builtins/data.rb:42-167"]}
{"id": "C137", "title": "Hash's transformations, slices and compactions are the maps they name", "statement": "transform_keys and transform_keys! give every new key the value of the last pair that gets it; transform_values keeps keys; slice, except and compact have exactly the pairs they name, in order; compact! answers nil if nothing changes; rehash of distinct keys changes nothing.", "quantifier": "all hashes, mappings, blocks and lists of keys", "why_tests_cant": "New keys may coincide with each other and with old keys in any pattern.", "anchors": ["monoruby/builtins/hash.rb:161-282", "monoruby/builtins/hash.rb:426-468"]}
{"id": "C138", "title": "Hash#min_by is the first entry with the least value", "statement": "min_by answers the first of the entries whose value is least, nil for an empty Hash, and raises ArgumentError for values that cannot be compared.", "quantifier": "all hashes and blocks", "why_tests_cant": "Values may be any objects, nil included.", "anchors": ["monoruby/builtins/hash.rb:402-414"]}
{"id": "C139", "title": "Hash gives its blocks the pairs", "statement": "any?, all?, count, flat_map and min_by of Hash give the pair to a block of one parameter and the key and the value to a block of two, and answer what Enumerable says.", "quantifier": "all hashes and blocks", "why_tests_cant": "Every method times every shape of block.", "anchors": ["monoruby/builtins/hash.rb:297-338", "monoruby/builtins/hash.rb:388-414"]}
{"id": "C140", "title": "Array's iterators survive a block that changes the Array", "statement": "map, reverse_each, rindex and drop_while of Array give the block the elements that Ruby gives it, and answer what Ruby does, also if the block changes the Array.", "quantifier": "all Arrays and blocks", "why_tests_cant": "A block can change the Array at every round in any way.", "anchors": ["monoruby/builtins/array.rb:104-116", "monoruby/builtins/array.rb:140-149", "monoruby/builtins/array.rb:464-472", "monoruby/builtins/array.rb:493-520"]}
{"id": "C141", "title": "Array's accesses in Ruby name the right elements", "statement": "values_at, fetch_values, assoc, rassoc and tally of Array answer what Ruby does for all indices, Ranges and elements.", "quantifier": "all Arrays, selectors and keys", "why_tests_cant": "Indices and ends of Ranges lie inside, before and behind the Array in all combinations.", "anchors": ["monoruby/builtins/array.rb:219-225", "monoruby/builtins/array.rb:474-491", "monoruby/builtins/array.rb:522-544", "monoruby/builtins/array.rb:649-672"]}
{"id": "C142", "title": "Pathname's arithmetic leads to the same place", "statement": "cleanpath leads to where the path does and is a normal form; p + q leads to where q leads from p, and so do parent and join; relative_path_from leads from the base to the destination.", "quantifier": "all paths and directories", "why_tests_cant": "Paths mix ., .. and names in any order and number.", "anchors": ["monoruby/builtins/pathname_builtins.rb:415-438", "monoruby/builtins/pathname_builtins.rb:474-499", "monoruby/builtins/pathname_builtins.rb:671-710", "monoruby/builtins/pathname_builtins.rb:725-735", "monoruby/builtins/pathname_builtins.rb:826-861"]}
{"id": "C143", "title": "Numeric's divisions and steps", "statement": "div, modulo, divmod and remainder of Numeric divide with an Integer quotient and a rest on the right side of 0; step gives its block the arithmetic progression up to the limit.", "quantifier": "all rationals and Integers", "why_tests_cant": "Signs, exact multiples and limits that are missed or hit come in all combinations.", "anchors": ["monoruby/builtins/numeric.rb:96-120", "monoruby/builtins/numeric.rb:130-132", "monoruby/builtins/numeric.rb:186-296"]}
{"id": "C144", "title": "String's methods written in Ruby", "statement": "insert, concat, prepend, chop, delete_suffix, partition and rpartition (with a String) of String answer what Ruby does.", "quantifier": "all Strings and arguments", "why_tests_cant": "Occurrences overlap, indices lie on all sides, arguments may be the receiver.", "anchors": ["monoruby/builtins/string.rb:7-41", "monoruby/builtins/string.rb:50-57", "monoruby/builtins/string.rb:70-116"]}
{"id": "C145", "title": "SecureRandom's numbers are uniform", "statement": "random_number(n) of Random::Formatter answers each Integer of 0...n from the same number of draws, and a Float in [0, 1) for an n that is not positive.", "quantifier": "all Integers and draws", "why_tests_cant": "A bias of the sampling shows only in distributions over all draws.", "anchors": ["monoruby/builtins/random.rb:19-47"]}
{"id": "C146", "title": "File.dirname takes off the last name", "statement": "File.dirname answers the directory part of a path unchanged, behind one slash if the path is absolute, and . or / if there is none; a level does it that many times.", "quantifier": "all paths and levels", "why_tests_cant": "Runs of slashes can be anywhere and of any length.", "anchors": ["monoruby/builtins/file.rb:91-124"]}
