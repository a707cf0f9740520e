# Formal model of lightspeed in Rocq (Coq 8.16.1)

`/repo` is C++ and is not built or run; the model is a reading of the source text.
Everything lives in `rocq/theories`, logical root `Verif`.

## 1. Layout and conventions

* `X_Model.v` – computable Gallina transcription of the code; every definition cites `/repo` file and lines.
* `X_Spec.v` (where it helps) – small independent specification; mentions no model helper.
* `X_Proof.v` – lemmas.
* `X_Props.v` – only property theorems (`exact lemma`), `Print Assumptions`, and non-vacuity `Example`s.
* Theorem suffixes: none = full property; `_partial` = part of it (what is missing is said beside it);
  `_refuted` = the faithful model of the unchanged code violates the property, with a concrete witness.
* Machine integers: `natural` is 64-bit unsigned, `integer` 64-bit signed, `byte` 8-bit, `wchar_t` 32-bit signed
  (Linux x86-64). Wrap-around is written into the model wherever the code can reach it.
* Undefined behaviour (uninitialised read, null dereference, use after free, signed overflow) is a distinct outcome.
* Loops become structural recursion or fuel recursion where running out of fuel is a distinct error that the theorems exclude.
* Concurrency: a small-step interleaving relation over a global state with one program counter per thread and an
  unbounded number of threads; one step = one atomic operation or one access to shared memory; sequentially consistent memory.

## 2. Plan per property

| id | what is modelled | how it is proved |
|----|------------------|------------------|
| C01, C02 | the converter objects `ByteToBase64Convert` / `Base64ToByteConvert` as state records with write/getNext/flush and the driver loop of `iterConv.h` | invariant "after k bytes the encoder has emitted the RFC text of the completed groups"; induction on groups of three; per-group bit lemma by finite/linear arithmetic |
| C03, C04 | `ByteToBase32Convert` / `Base32ToByteConvert` | same scheme with groups of five; C04 by witness |
| C05 | Base16 converters incl. the decode table with *uninitialised* entries as a distinct value | induction; finite sweep over 256 bytes |
| C06 | Base85 converters with 32-bit wrap | induction on groups of four; witness for stale output on empty/aligned input if confirmed |
| C07 | UrlEncodeConvert, UrlDecodeConvert | induction, sweep over bytes |
| C08, C09 | Wide/UTF-8 converters | arithmetic per length class; witness for U+07FF |
| C10, C11 | CompressNumb | arithmetic per length class |
| C12 | BinaryWriter/BinaryReader over an inductive universe of schemas | induction on the value tree |
| C13, C14 | CRC table and update loop | table = bitwise step by sweep; linearity over xor |
| C15 | LZW compressor and decompressor with dictionary, width change, clear code, bit packing | simulation relation between encoder and decoder dictionaries (one entry lag), bit-stream lemma for packing |
| C16 | MD5/SHA-1 update/final buffering, compression function as a parameter | induction over chunks |
| C17–C19 | AVL node algorithms, map layer, iterator with explicit path | BST+AVL invariant by induction; refinement to sorted association list; Fibonacci height bound |
| C20 | ring buffer deque with explicit head/tail/capacity | refinement to list |
| C21, C22 | heap sort on arrays; priority queue on top | heap invariant, permutation; witness for the wrong truncation |
| C23 | linked list in an explicit heap (address → node) | refinement for the sound operations, witnesses for the defects |
| C24 | B-tree insertion, find, rank | structural induction |
| C25 | MemFile | refinement to byte list + cursor |
| C26, C27 | Read/WriteBuffer over an abstract source/sink with arbitrary acceptance | invariants, witnesses |
| C28 | AllocCluster free list embedded in the block memory | free-list invariant |
| C29, C30 | heap of objects, pointers as variables | counting invariant |
| C31–C38 | interleaving models of the lock primitives | inductive invariants over all reachable states |
| C39 | promise with lock-protected critical sections as steps | inductive invariant |
| C40 | digit extraction and parsing loops with 64-bit wrap | induction |
| C41 | fetchLine | induction |
| C42, C43 | serializer, parser over character lists | induction over JSON trees |
| C44–C46 | datetime, rational | arithmetic |
| C47 | Base85 decoder on standard text | per group of five, number read back equals the number written |
| C48 | UTF-8 decoder on arbitrary bytes, 32-bit accumulator | induction over the bytes; witness 0xFE |
| C49 | string serialisation on top of BinaryWriter/Reader | induction; witness for a text the reader changes |
| C50 | LZW decoder fed with a second stream | witness derived for the general case |
| C51, C52 | month/day adjustment, Unix time | arithmetic with explicit day counts; witnesses |
| C53–C56 | rational comparison, floor, power, gcd | integer arithmetic, well-founded recursion for gcd |
| C57, C58 | signed text, overflow of parsed numbers | induction on digits; witnesses |
| C59 | copying a deque | witness for every capacity |
| C60, C61 | heap push/pop, removal in the middle | heap invariant by strong induction on positions |
| C62–C65 | linked list in an explicit heap | refinement to lists with a segment predicate; witnesses |
| C66–C71 | MemFile, text file | refinement to byte list and cursor; witnesses |
| C72–C78 | IOBuffer (one buffer for both directions) | refinement to "unread bytes, written bytes"; witnesses |
| C79–C82 | WriteBuffer/ReadBuffer details | invariant over all acceptances of the sink; witnesses |
| C83–C94 | Map copy, union, difference, iterators, comparison, counting | refinement to association lists; witnesses |
| C95–C101 | FastLock, FastLockR | inductive invariant over all interleavings with an explicit queue of slots in memory; witnesses are schedules |
| C102, C103 | LevelLock | invariant and order of tickets |
| C104–C109 | SyncPt, Semaphore, Gate | refinement to a queue; schedules as witnesses |
| C110–C112 | Promise/Future with branches and observers | invariant over operations; witnesses |
| C113–C116 | BTree | structural induction; witnesses on concrete trees |
| C117–C119 | RefCntPtr over an object heap | counting invariant; witnesses |
| C120, C121 | WeakRef with concurrent lock/setNull | inductive invariant; schedule as witness |
| C122–C126 | SharedPtr as a ring of pointers in memory | ring invariant; refinement to sharing groups; witnesses |
| C127, C128 | AllocCluster owners and size 0 | invariant over histories; witnesses |
| C129–C134 | JSON parser and serialiser over characters | grammar of RFC 8259 as an inductive relation; induction over derivations and values |
| C135–C142 | JSON DOM, equality, clone, paths | nested induction over values (`json_deep`); witnesses |
| C143–C147 | full MD5 and SHA-1 with the compression functions | equality with an independent transcription of RFC 1321 / FIPS 180, buffering invariant |
| C148–C156 | TextFormat: pattern compiler and output | grammar of patterns as a specification, induction over pattern pieces |
| C157, C158 | binary JSON reader | fuel measure for termination; witness for undefined behaviour |
| C159–C168 | AutoArray with construct/destroy events and exceptions | refinement to lists, ghost count of live items, potential argument for cost |
| C169–C185 | array expressions (ArrayT, Concat, Mid, Reverse, Repeat) | denotation of the expression as a list, induction on expressions; witnesses |
| C186–C189 | SList: lock-free list with cookie | invariant with a ghost stack per list, history replay as specification; schedules for all alignments |
| C190–C192 | SpinLock, SpinLockRecursive | inductive invariants; schedules for arbitrary threads |
| C193–C196 | Mutex with queue of slots, hand-over and time limits | inductive invariant with 15 parts, proved per step by saturation; schedules |
| C197–C209 | iterators: filters, sorting filter, merging, limiters, default block operations | refinement of a list reader over all sequences of calls; sorting filter as a bag with a largest item (reuses the heap lemmas) |
| C210–C219 | TimeStamp: order, arithmetic, unix and Windows time, calendar, texts | exact integer arithmetic with the 32 and 64 bit conversions of the code against milliseconds and the calendar of Date_Spec; timegm and gmtime as parameters with a specification |
| C220–C229 | TextParser: matching, quoted fields, numbers, sets, alternatives, limits | mutual recursive functions with fuel against an inductive matching relation; the pattern text is rendered from a list of items, the parser is shown to compute the first match; refutations by symbolic runs |
| C230–C238 | reading time stamps: StampParse_Model (fromDBTime, fromISO8601Time on top of the text parser and time stamp models); texts of all dates 1970-9999 by stamp_calendar and the pattern theorem of the text parser; zones, fractions, basic forms and week dates refuted in general |
| C239–C246 | strings: Str_Model (heap of counted buffers, variables as pointers, every reference taken and given back as in RefCntPtr); invariant: count = number of holders, text closed by a zero; refinement to plain texts over all histories; self-assignment, createBuffer, full iterator, <= with a literal and zeros without case refuted in general |
| C247–C266 | HTTP client: Http_Model (request as output text, response as reader over the remaining input, loops that may not end with fuel); Http_Spec has the wire format (heads, chunked coding) and a cursor; invariant of the writer: output is the start of a coding of every continuation; invariants of the readers: state holds the rest of the body; bugs refuted in general over all well-formed messages |
| C267–C276 | URL encoder and decoder as filters of iterators (read and write side), block reading, query parser | escaped texts as an inductive relation; cursor refinement for all histories; refutations for block reading, empty parts, names and malformed escapes |
| C277–C283 | SysTime (Linux) and Timeout: SysTime_Model (timeval as two integers, overflow is undefined); SysTime_Spec has spans and moments of expiry | linear arithmetic over microseconds; two refutations about nil |
| C284–C290 | resource pool: one step per access of acquire and release for any number of clients | invariant that counts the owners of each resource and the steps that still owe the counter, for all schedules; induction for the rush of any number of clients |
| C291–C296 | parallel executor: one step per access of execute, stopAll and the workers | counting invariant for the action's holders; invariant on counted threads; invariant that a worker is awake, and from it a schedule that completes the call; closed set of lost states for the hangs |
| C297–C305 | Configuration parser: the parser as a state over the rest of the text, with the loops of the section, name, value and escape readers | grammar of configurations as inductive relation; the parser follows every derivation; measure on the rest of the text for the end; counterexamples by computation |
| C306–C315 | File paths: expressions as trees, writer and length functions, queries with the remembered position | pieces between separators and the place a path leads to as specification; induction over expressions with the number of parents to skip; counterexamples by computation |
| C316–C322 | mt/dispatcher and mt/scheduler: queue of detachable actions, event log; array heap of (time, promise), use of the lock as an event list | shape invariant of the queue; heap invariant of C60; the negative theorems hold for every history |
| C323–C330 | base/actions/queueExecutor: one program counter per thread, steps under the lock are atomic, the unlocked decrement is two steps, semaphore as counter and list of waiters | invariant with sums over threads; progress by a rank of the threads; explicit schedules for the refutations |
| C331–C341 | message queue: any number of posters and the worker interleave at every access to the shared lists and the counter; a second model with link pointers | invariant over runs with a history of events; reachability for progress; induction on pointer chains; concrete schedules for refutations |
| C342–C348 | old scheduler: posts, clock and worker interleave; 64-bit time differences; merge sort of the new messages | sortedness of merges; invariant over runs; rank of worker states for progress; concrete schedules for refutations |
| C349–C355 | string pool: blocks, moves decided by the allocator, references by offset | invariant: every noted reference decomposes the items | 
| C356–C360 | pool allocators: heap as a list of blocks, stack of free blocks, reference count | invariant: blocks of the heap are a permutation of free and used blocks; refuting trace |
| C361–C364 | AutoArray with SmallAlloc: blocks with their origin, local buffers | refinement to two lists with a frame condition; refuting trace |
| C365–C372 | array set: items, count of ordered items | invariant: the ordered part is sorted; binary search, insertion sort, heap sort from the Heap area; refuting examples |
| C373–C378 | list with iterators: memory of counted items in a ring with an anchor | refinement to a sequence with places, invariant on links and reference counts |
| C379–C385 | pairs of locks: threads with program counters, plain locks with owners | invariant of held locks by program counter, constructed schedule for progress |
| C386–C396 | Distributor: two linked lists as chains with tail pointers, explicit stack of running sends, listeners as a script of actions | refinement to a queue of messages with the listeners that remain; pending-messages accounting, subsequence invariant; refutations by concrete scripts |
| C397–C400 | NamedEnum: definitions, two arrays of indexes sorted by the model of HeapSort, binary searches | lexicographic order of the string comparison, C21 for the sort, generic binary search lemma over monotone comparisons |
| C401–C410 | strtod: text scanner with undefined pointer moves and int overflow, doubles as IEEE binary64 of Coq.Floats.SpecFloat | scanning lemmas over numerals, exactness of integers below 2^53 and half-unit rounding lemmas about SpecFloat, refutations by computation |
| C411–C415 | XML entities: decoding loop over lists of characters | induction over a relation of written texts |
| C416–C420 | Job: any number of threads, compare and exchange loops on the state; run() sequentially | invariant: finished calls form a chain of atomic calls |
| C421–C429 | Notifier and sleeping threads: the owner, any number of other threads, the POSIX semaphore; histories of calls | invariants relating open and ended calls of the history to the state; liveness by the owner's own steps |
| C430–C440 | Event journal (utils/eventdb): writer, reader, sendUpdate, readRecord, sync and range scan as functions on lists of bytes | one-block lemmas for writer and reader, composition of scans, induction over events; cut and changed bytes by cases in one record |
| C441–C444 | Cells of the event log: file of frames as bytes, table of frames | invariant: the file is a list of frames and the table is the fold over them; update appends a frame or replaces one of the same capacity |
| C445–C455 | watched descriptors: FdSelect_Model (LinuxFdSelect: list, extra data and index, position, poll answers as input, wake-ups) | invariant that index and list agree and pending events are not before the position; view of a descriptor through each operation |
| C456–C463 | random numbers: Random_Model (multiply-with-carry generator, ranges) | the step is injective on states with a small carry, pigeonhole; intervals of source values by ceiling division |
| C464–C473 | one-shot set of sockets: EpSel_Model (set, unset, wait, cancelAll, the heap of timeouts with references to its entries) | invariant: each entry of the heap is referred to by its owner, charged sockets agree with the history; with settled deliveries no stale reference is left; refutations on histories |
| C474–C482 | listener of network events: NetEv_Model (requests, events, records per socket) | invariant: records and sockets one to one, listeners agree with open requests of the history, charge is the fold over listeners; refutations on failing calls |
| C483–C486 | set of sockets over poll: PollSel_Model (pool, places of sockets, removal by moving the last entry) | invariant: places and pool are inverse to each other, charges agree with the history | 
| C487–C494 | TCPServer connections: one connection with the listener thread, worker threads, callers of wakeUp and stop, one atomic operation per step, any schedule | token invariant (who holds the connection), history specification, counterexample schedules |
| C495–C502 | fibers over ucontext: flags, callers, places where fibers are suspended, thread variable of the current fiber | refinement of a history specification by an invariant, counterexample programs |
| C503–C505 | Optional: buffers with object identities, the armed flag, throwing constructors | refinement of an option, invariant over owners of objects, counterexample |
| C506–C512 | waiting object for network resources, over the model of the descriptor set | refinement of a history of registrations and poll answers by an invariant, measure for the loop, counterexamples |
| C513–C518 | mt/microlock.h: MicroLock_Model, step machine over any number of threads | invariant with the queue as a list, history checked by MicroLock_Spec |
| C519–C525 | thread variables (threadVar.h, tlsalloc.cpp): the table as a list of records, delete functions as programs that run inside the calls, with fuel; index allocator over the heap model | invariant (puts = deletes + table) by induction over nested calls, a measure for clear; permutation invariant of the index pool; counterexample programs |
| C526–C530 | thread hooks (threadHook.cpp) and the calls in a new thread (thread.cpp): the chain as a heap of objects with next pointers | refinement of the chain to the list of installed hooks, induction along the chain; documented order as a separate function |
| C531–C536 | life of a thread (thread.cpp): one Thread object, clients with programs of start/join/destroy, new threads as step machines, any schedule | invariant by phases of a round, log as a prefix of an orderly history, progress; counterexample schedules |
| C537–C541 | asynchronous procedure calls (apc.h, apcthread.cpp): threads that queue, a server, steps at each access of the queue | invariant over all schedules (one call returns, nothing is run), induction on the number of steps |
| C542–C544 | registry of services (services.cpp, iservices.h): map from interfaces to stacks | refinement to the list of registrations in order of time, over all histories | 
| C545–C548 | reader of a command line (cmdLineIterator.cpp): position in arguments and characters | simulation of a reader of lists, over all sequences of calls | 
| C549–C552 | automatic start of message threads (msgthread.cpp): many calls of notify, a step for each access of shared state | counting invariant over all schedules, induction on later schedules | 

No property of the list is outside what a model can express; what is abstracted is listed in section 4.
For a property that the code does not have, the plan is the same: model the code as it is, prove the negation
from a witness (wherever possible a family of witnesses, e.g. for all lengths, all threads, all alignments), and prove the
property under the condition that makes it true.

## 3. Trusted base

* Coq 8.16.1 kernel (incl. `vm_compute`), `coqchk`.
* The faithfulness of the hand transcription from C++ to Gallina (cited line by line). The code is not compiled or run.
* Axioms: `Print Assumptions` answers "Closed under the global context" for **every** theorem named in `MANIFEST.json`
  (the command stands after each theorem in the `_Props` files). No axiom is used or added.
* `coqchk` on the whole development lists seven constants `Coq.ssr.ssrunder.Under_rel.*`. They are opaque fields of a module
  of the standard library's ssreflect files that some standard library files load (through `Lia`/`Psatz`); no theorem of this
  development depends on them, as `Print Assumptions` shows.
* The gate's rules hold: no functors, no module types, no `Admitted`, no switched-off checks, no plugins.

## 4. What is and is not modelled

Common simplifications, said again in the header of each model file:

* memory exhaustion is not modelled unless a property is about it (C160, C161 let every construction throw);
* memory is sequentially consistent; a step is one access to shared memory; the number of threads is unbounded;
* templates are modelled for an arbitrary item type (a section variable or a type argument) or for bytes/characters;
* floating point numbers, `wchar_t` variants of byte code and locale dependent code are not modelled;
* destructors are modelled where their effects are observable by the property (counted pointers, arrays, promises).

| area | modelled | not modelled |
|------|----------|--------------|
| base64/32/16/85, URL, UTF-8 | converter objects and both drivers | file variants, BytesToWide/WideToBytes |
| CRC, MD5, SHA-1 | complete algorithms | iterator wrappers beyond write/flush |
| serialisation | BinaryWriter/BinaryReader, numbers, strings, structures | class tables, versions, other formatters |
| LZW | compressor and decompressor of lzw.h | LZWp variants |
| date, rational, number texts | conversions, arithmetic, comparison | class Time, floats |
| Deque, Heap, LinkedList, AutoArray, array expressions | all operations named in the properties | AutoArray over static storage, POD shortcuts |
| Map (AVL), BTree | insertion, removal, search, iteration, copying | Set/MultiMap wrappers |
| MemFile, IOBuffer, Read/WriteBuffer | operations with arbitrary partial acceptance | files of the operating system |
| AllocCluster | clusters, free lists, owners | other allocators |
| RefCntPtr, SharedPtr, WeakRef | operations over an explicit heap | SharedStaticPtr, custom deleters |
| FastLock, FastLockR, LevelLock, SyncPt, Semaphore, Gate, SList, SpinLock, Mutex | all calls named in the properties | lockAsync/cancelAsync/setOwner of Mutex, priorities, timers |
| Promise | resolve, reject, observers, wait, drop | chaining (then, transform, and/or) |
| JSON text, binary JSON, DOM | parser, serialiser, DOM operations, paths | stream callbacks, builder, cycle detector, floats |
| TextFormat | patterns and integer/text arguments | floats, formatter objects |
| iterators | filters over list sources and targets, SortFilter, MergeIterator, limiters, default algorithms | SplitIterator (does not compile), lifetime of items behind pointers |
| TimeStamp | all but the constructor from double and formatTime with a given format | floats, strftime beyond the directives used, time zone tables |
| base/text/textParser.h, .tcc, .cpp (TextParser) | all pattern commands, alternatives, results as text and unsigned numbers | custom parsers, comparison functors other than equality, results as float, allocator limits |
| base/timestamp.cpp text parsing | fromDBTime, fromISO8601Time with parse8601date and parse8601time | size limit of the parser buffer, conversion of the fraction (never reached), overflow of the fields above 2^64 |
| containers/stringBase.h, string.h, constStr.h, linux/string.cpp | StringCore over shared buffers, iterators, comparison with and without case | other threads, allocators, wide case tables, conversions between char and wchar_t (see UTF-8), hashing |
| HTTP client (streams/httpc) | requests, chunked coding, setUrl, response head, bodies by length, chunks and connection end, reset | value of the Authorization field (a parameter), string pool, getRemain, the tree behind the header map (see maps) |
| filters of iterators (base/iter/iteratorFilter), filters of utils/urlencode.h, utils/queryParser | FilterRead with block reading, FilterWrite with a target that is never full, both URL filters, QueryParser | the other filters, block writing, exceptions of the source, copies of a QueryParser |
| mt/linux/systime.h, mt/timeout.h | SysTime arithmetic, readings, comparison; Timeout with the clock as an argument | reading the clock, Windows variant, serialisation |
| base/containers/resourcePool.cpp | acquire and release as interleaved steps, waiting clients, expiration, failing creation, setLimit | the time of expiration (a free choice), the pool's destructor, pool references |
| base/actions/parallelExecutor.cpp | execute, stopAll and the loop of the workers as interleaved steps, timeouts as free choices | the idle counter, the hooks, setMaxThreadCount and spawnThreads, finish flags one by one, actions that throw, deletion of dead workers |
| configuration parser (utils/configParser) | getNextLine with all its readers, trim with its 64 bit arithmetic, merge with and without ignoreErrors, default include callback | numeric and boolean getters, section and prefix enumeration, include callbacks that open files, string pool |
| file paths (utils/FilePath) | all queries, constructors, expressions with names, parent and nil, both configurations | lifetime of temporaries in expressions, conversion from UTF-8 (Utf_Model), current directory |
| Dispatcher, Scheduler | dispatch, run (entry, one turn, end), quit, getNextAction, rejectQueue; schedule, onIdle, order of lock events in an idle turn | actions that throw, promises registered by IDispatcher, sleeping and waking of the thread itself, infinite timeouts |
| QueueExecutor | execute, finish, reset, stopAll (the gate), serve with Server, wakeThread, isRunning | other onIdle implementations and timeouts, the range of the counter, Thread::canFinish beyond a free choice |
| msgQueue.cpp | postMessage, postPriorityMessage, prepareQueue, getNextMsg, pumpMessage, flush, cancelMessage, finish, length, isRunning, empty | run() that posts messages, messages used again after done, notify(), stopAll(0), the copy constructor (leaves its pointers uninitialised) |
| schedulerOld.cpp | prepareQueue, sortList, compareMsg, mergeSort, pumpMessage, getWaitTime, schedule | priority messages with a time, the stack used by sortList, cancelling of events |
| stringpool.h/.tcc | StringPool::add (3 forms), mark, release, fromMark, clear, freeExtra, WriteIterator, StringPoolStrRef | iterators over strings of the same pool, copies of the pool, data() of the empty string in a new pool (poolRef is not initialised) |
| PoolAlloc, MultiPoolAlloc | alloc, dealloc, freeExtra, release, choice of the pool, failing system allocation | parallel use (the lock-free list is in the SList area), PoolAllocFactory |
| SmallAlloc | AllocatedMemory move, swap, destructor; AutoArray addExtra, freeExtra, reserve, add, trunc, swap over it, failing allocation | items with constructors (see AutoArray), copy constructor |
| ArraySet | find, insert, erase, trunc, clear, add, makeOrdered, isOrdered, detectOrder | merge, filter, remove, crop, getOrdered (do not compile), the rest of removeDuplicatesAfterOrder (never reached) |
| containers/list.h | List: add, insert, erase, clear, iterators in both directions | MutableIterator writes, getRemain, allocators, exceptions of constructors |
| sync/lockPair.h | lock, tryLock, lock(timeout), unlock, exceptions of the locks | recursive locks; real time |
| base/actions/distributor.h, distrubutor.tcc | add, priorityAdd, remove, removeAll, isAdded, size, send, finish, stop, exit message without exceptions, one thread | locking between threads, getCurrent, getSender, Envelop, Message |
| base/namedEnum.h | construction, find, both operator[], toString | text of the exception |
| strtod (base/text/strtodouble.cpp) | blanks, sign, mantissa split in two ints, exponent, table of powers of ten, all double operations, number of read characters | texts of 2^31 characters and more, characters above 127, extended precision of x87 |
| XML parser (utils/xmlparser.cpp) | fixEntities, loadEntity | scanning of tags, text, comments and CDATA |
| Job (base/actions/job.cpp) | all transitions of the state, run() and execute() in one thread | the function object, notified objects, assignment of jobs |
| mt/notifier.*, mt/linux/threadSleeper.cpp, mt/linux/thread.cpp:407-442 | wait, wakeUp, reset, test, destruction, sleep, deepSleep, finish | other failures of the semaphore; a change of the clock; weak memory |
| Event journal | writeBlock, parseBlock, rescan (three forms), sendUpdate_trn, readRecord, addListenerAndSync, rescanOtherLog | cells, replication, write speed limit, exceptions of listeners, files above 2^64 bytes |
| Cells of the event log | updateStEvent_trn, scanStEvents, loadStEvent, rescanStEvents, expandCellMap | crash during an update, exceptions of listeners, data over 512 KiB |
| base/linux/linuxFdSelect.cpp, linuxFdSelect.h | set, unset, isSet, getData, getNext, peek, dropAll, findSignaled, doWaitPoll (time and results), enableWakeUp, wakeUp | poll and the clock are inputs; interrupted poll, errors of system calls, the content of the wake-up pipe and concurrent wakeUp are not modelled |
| base/streams/random.h | Rand, Random<natural>, Random<integer> | Random<double>; the size of the period (only its existence is proved) |
| base/linux/epollSelect.cpp, containers/sort.tcc (as used by it) | EPollSelect: set, unset, wait, getUserData, cancelAll, timeouts | wakeUp pipe, errors of epoll_wait; memory of the heap moving under an old reference |
| base/linux/networkEventListener.cpp | doRequestWithSocket, updateFdData, the event part of workerProc | threads, message queue, shutdown |
| base/linux/pollSelect.cpp | the pool, set, delivery, cancelAll | timeouts (same code as epollSelect.cpp), the pipe |
| base/framework/TCPServer.cpp | wakeUp, workerEx, reuse, close, CompletionWakeUp, the steps of stop, for one connection | listening sockets, ports, several connections, wake-up calls on a removed connection |
| mt/linux/fiber.cpp | start, wakeUp, stop, sleep, switchFibers, checkState, destructor in one thread | failures of malloc and swapcontext, destroyMasterFiber, several threads |
| containers/optional.h | all constructors, assignments, move constructor, reads, destructor | operator=(Optional \&\&) which does not compile, alignment of the buffer |
| base/linux/linuxNetWaitingObj.cpp | add, remove, getNext, peek, hasItems, sleep, wakeUp, over FdSelect_Model | threads calling wakeUp while getNext runs, conversion of times |
| mt/microlock.h | Synchronized<MicroLock> lock/unlock, one step per shared access, sleeper tokens, end of threads | weak memory, two objects of one thread on the same lock |
| thread variables | TLSRecord, TLSTable, ThreadVar::set/setValue/unset, ThreadVarInit::init, TLSAllocator | the lock of the allocator, delete functions that throw, access to tables of other threads |
| thread hooks | install, uninstall, destructor, the three call functions, order of calls in bootstrap | handlers that install hooks themselves (they would wait for the lock for ever), master and attached threads |
| life of a thread | start, join, isRunning, destructor, bootstrap, finishThread, handleException | sleep/wake-up reasons, attach, master thread, signals, stack sizes |
| asynchronous procedure calls | execute, executeQueue, rejectAll, impSleep | enableAPC, the wake-up of the thread |
| base/framework/services.cpp, iservices.h | addService, removeService, proxyInterface, the loops over interfaces | the cast of the object found, addService and removeService with an index |
| base/framework/cmdLineIterator.cpp | all of the iterator | getNextNumber, lifetime of the returned reference |
| mt/msgthread.cpp | notify, autoStart | the workers, wakeUp, setManualStart, SchedulerThread |
| all other directories | nothing | network, HTTP server, XML, threads and processes, RPC, database, platform code |

## 5. Wrong programs

`seeded/LOG.jsonl` has one line per edit of a model in a scratch copy. `failed` names the first lemma that no longer
proves on the edited model and the theorems of the named claim that stand behind it. An edit whose claim starts with
"none, control edit" keeps the claim true; such lines show how specific the proofs are and are not evidence for a theorem.
`tightened` names theorems changed because an edit survived.
