# Formal model of echoface/ltio in Coq 8.16.1

## Layout

* `rocq/theories/Model/*.v`  - the executable model, one file per component; every definition
  cites the file and lines of /repo it models. No proofs in these files.
* `rocq/theories/Spec/*.v`   - small specifications that do not use the model's helpers.
* `rocq/theories/Proofs/*.v` - lemmas and proofs.
* `rocq/theories/Properties/*.v` - the property theorems: statement, proof (usually `exact lemma`),
  `Print Assumptions`, and beside each theorem an `Example` showing a non-trivial instance of its hypotheses.
* `properties.jsonl` the English properties, `MANIFEST.json` property -> theorem names,
  `seeded/LOG.jsonl` the wrong-program experiments.

Conventions: bytes and machine integers are `Z` (bytes with the range predicate `is_byte`),
lengths/indices are `nat` or `Z`; wrap-around is written explicitly where a property depends on it.
Undefined behaviour (`UB`) and `CHECK` failures (`CheckFail`) are distinct outcomes, never silently totalised.
External calls (kernel read/write results, hash functions, llhttp events, clock values, scheduler
choices) are universally quantified arguments: theorems hold for every value of them.
Concurrency is modelled as interleaving of atomic steps (sequentially consistent memory);
weak-memory reorderings below the C++ `memory_order` annotations are outside the model.
Histories are inductive relations or folds over arbitrary lists of operations, without bound.

A property that the code violates keeps its full statement: in `properties.jsonl`, and in Coq as
`Definition Cxx_..._statement`. A theorem `..._refuted` proves its negation from a witness execution of the faithful model
and theorems `..._partial` prove the part that holds.

## Plan and outcome per property

For each: what is modelled and how it is proved; status; what the code breaks, if anything.

* **C01** IOBuffer is a byte queue [proved]. IOBuffer as record {data; read; write}, each method a function; refinement to a byte list by induction on operation lists. 
* **C02** IOBuffer never writes outside its storage [proved]. same model; writes outside the storage are the outcome UB; invariant read<=write<=|data|. 
* **C03** Line codec delivers exactly the sent lines [proved]. OnDataReceived as a function on the buffer; induction over read events. 
* **C04** Line codec delivers a line as soon as it is complete [partial]. same model. The full statement is false of the code (OnDataReceived delivers at most one line per read event): refuted with a witness; promptness proved when each read event completes at most one line.
* **C05** Raw protocol round trip under fragmentation [proved]. 24-byte little endian header, Decode with its 64-bit wrap, loop with fuel bounded by the buffer; induction on messages and on fragmentation. 
* **C06** Raw decoder survives any input [partial]. same model, arbitrary input bytes. Refuted: a size field in [2^64-24,2^64) makes frame_size() wrap and std::string::append throw (process terminates). Proved for all input: no read outside the received bytes; and survival when no size field wraps.
* **C07** Websocket frame parser is insensitive to fragmentation [proved]. websocket_parser_execute as written (state, require, offset) simulated by a byte-wise step; chunk independence by induction. 
* **C08** Websocket frame build/parse round trip [proved]. builder for the three length forms, parsed back by the C07 machine. 
* **C09** Websocket masking is invertible piecewise [proved]. masking as xor with a rotating key offset; algebra on lists. 
* **C10** Websocket messages are reassembled from their fragments [partial]. OnFrameBegin/Body/Finish/Commit over frame events. Refuted: a control frame between fragments takes over the partial message (OnFrameBegin reuses current_). Proved for messages not interrupted by control frames.
* **C11** Redis reply decoder is insensitive to fragmentation [proved]. decoder with value/array stacks as a byte-step machine; induction over splits. 
* **C12** Redis values survive encode and decode [proved]. induction over nested values, encoder against decoder. 
* **C13** Redis pipelining pairs replies with requests [partial]. RespCodecService as a state machine over reply values; history invariant. Refuted: a request queued behind another is sent inside the completion callback and OnDataReceived then zeroes next_incoming_count_, so it never completes. Proved for requests submitted one after the other completed.
* **C14** Base64 round trip [proved]. encode/decode loops over the real alphabet table. 
* **C15** Base64 decode stays inside its output and loses nothing [partial]. output writes with size check as UB. Refuted: for lengths not a multiple of four the output is too small (n/4*3). Proved for every text whose length is a multiple of four.
* **C16** Network byte order conversions [proved]. ByteSwap as shifts and masks; bitwise extensionality. 
* **C17** Timers never fire early [proved]. timeout.c with wheels/slots/pending bitmaps; invariant relating slot and deadline; EventPump timer functions on top. 
* **C18** Timers are never lost [proved]. same invariant: every pending timer is in the slot that the next update will visit no later than its deadline's tick. 
* **C19** Sleep time never overshoots a timer [proved]. timeouts_timeout / sleep computation against the invariant. 
* **C20** Cancelled timers never fire [proved]. removal clears the slot; history argument. 
* **C21** Repeating timers keep their phase [proved]. repeating timers' deadlines are start + k*period. 
* **C22** No posted task is lost while the loop sleeps [proved]. small-step interleaving, any number of posters; inductive invariant on notify flag, queue and eventfd. Interleaving model under sequential consistency; the lock-free queue is modelled by its documented per-producer FIFO contract.
* **C23** Posted tasks run exactly once and in order [proved]. same system; ghost history of runs equals accepted prefix. 
* **C24** Every accepted task runs before the loop exits [partial]. same system with ThreadMain's tail. Refuted: a poster that passed CHECK(running_) can enqueue after the final drain; its task never runs. Proved: every task accepted while running_ was true runs before exit, and every task posted from inside the loop does.
* **C25** Coroutine mutex excludes and hands over fairly [proved]. transition system of CoMutex over the spin lock, any number of coroutines; inductive invariant. Fine-grained interleaving model incl. the spin lock; a blocked lock() is assumed to be woken only by its own resumer (see C46).
* **C26** WaitGroup waits for all registered work [partial]. transition system of WaitGroup. Refuted: a counter that touches zero between two Adds posts a wakeup that ends a later Wait early. Proved when the counter does not touch zero before the last Add; no lost wakeup proved without that condition.
* **C27** A coroutine is resumed at most once per suspension [proved]. transition system of CoroRunner with resume ids. 
* **C28** Async client requests complete exactly once [proved]. AsyncChannel state machine with ghost completions; invariant over all event histories. 
* **C29** Async client never drops a request whose id collides [partial]. same machine, colliding ids. Refuted: in_progress_.insert keeps the first request; the second is tracked by nobody (websocket frames all have id 0). Proved: a request whose id is not in flight is tracked and gets its response.
* **C30** Queued client matches responses in order [partial]. QueuedChannel state machine; TrySendNext's dangling reference is an explicit UB outcome. Refuted: TrySendNext uses a reference into the list element it has just popped (undefined behaviour on every first send). All of the property is proved under the assumption that the freed node still holds its bytes.
* **C31** Bytes given to a TCP channel reach the socket in order [proved]. TcpChannel with an arbitrary kernel script; conservation invariant accepted = written ++ buffered. 
* **C32** LRU cache keeps the most recently used entries [proved]. list + map kept separately as in the code; refinement to an ordered association list. 
* **C33** Bloom filter has no false negatives [proved]. table as a list of bytes, hash a parameter, interleaved atomic steps. 
* **C34** Count-min sketch never underestimates [proved]. rows of saturating counters, hash a parameter. 
* **C35** Maglev ring is completely and fairly filled [partial]. maglev2 fill loop with fuel; termination and counting argument. Full statement refuted: with the default ring size 65537 endpoints whose skip is 65536 make ring generation loop forever (next*skip wraps at 2^32). Proved: terminates, complete, fair and weight-proportional when ring^2 <= 2^32, or ring = 65537 and no endpoint has that skip.
* **C36** Consistent hash ring moves few keys [partial]. ring map as a sorted association list, lookup by lower bound. Refuted when hashes collide: erasing a node removes another node with the same hash. Proved: lookup = first clockwise; insertion (also of a whole client) only moves lookups to the new node, even with collisions; erase moves only its own lookups when no other ring node has its hash.
* **C37** Round robin is fair [partial]. atomic counter with 2^32 wrap. Refuted at the wrap of the 32 bit counter for n not a power of two. Proved: exactly once away from the wrap or when n divides 2^32; at most twice always.
* **C38** Document/conjunction identifiers are unambiguous [proved]. bit packing on Z, testbit extensionality. Round trip, injectivity and total order within the documented widths (documents strictly between -2^43 and 2^43, 8-bit index and size).
* **C39** Posting-list cursors skip exactly [proved]. EntriesCursor and FieldCursor; sortedness invariant. EntriesCursor::SkipTo/Skip on every sorted list, and the whole field cursor (heap-free list of cursors) sits at the smallest entry not passed after any sequence of skips.
* **C40** Boolean index retrieval is exact [partial]. index building and Retrieve with fuel; termination measure; soundness/completeness by invariant on cursors. Refuted: for conjunctions with two or more inclusions Retrieve only looks at the first cursor's entry (the end id is computed from the same entry id), so it returns documents whose conjunction is not satisfied and misses others; a query on a field unknown to the index dereferences null (theorem). Proved: termination, and in any index soundness/completeness for conjunctions of at most one inclusion; exactness when no conjunction has more than one. Missing: exactness for larger conjunctions (false). Hash collisions excluded by hypothesis; std::sort and hash are parameters.
* **C41** Websocket parser never over-reads [partial]. C07's machine with 64-bit pointer comparison. Refuted: an announced length near 2^64 wraps the pointer comparison. Proved for streams whose 8-byte windows are all below 2^63.
* **C42** Dumping a redis response does not change it [partial]. unique_array's moving copy modelled. Refuted: DebugDump copies value.array() and copying a unique_array moves it out. Proved for responses without non-empty top level arrays.
* **C43** Delay is counted from the add call [partial]. TimeWheel model, deadlines against the clock at the call. Refuted for repeating timers: their first deadline is counted from the pump's last clock reading (add_timer_internal passes a relative time), so a timer added after the loop was busy fires early. Proved: one-shot timers (C17_one_shot_never_early) and the bound relative to the last reading.
* **C44** Posting a task never aborts the process [partial]. MsgLoop model with CHECK as outcome. Refuted: after the quit byte set running_=false a queued task that itself posts hits CHECK(running_). Proved: no abort until a quit is requested.
* **C45** Invoking a resumer never terminates the process [partial]. Coro model with CHECK as outcome. Refuted: resumer invoked before the coroutine suspends, coroutine then exits: CHECK(!Attatched()) in GC. Proved: that is the only way.
* **C46** Coroutine mutex excludes even when other resumers fire [partial]. CoMutex model plus stray resumptions. Refuted: lock() does not re-check after waking.
* **C47** An async id may be reused after its request ended [partial]. AsyncChannel model with timeout tasks. Refuted: the old request's timeout task erases by id. Proved: harmless if nobody holds the old message.
* **C48** Requests posted around CloseClientChannel still end [partial]. AsyncChannel/QueuedChannel model, close at any point. Refuted: CloseClientChannel drops delegate_, later completions go nowhere. Proved: everything submitted before the close ends.
* **C49** Received bytes reach the codec exactly, and before the close [proved]. TcpChannel reads; conservation invariant for the in direction. 
* **C50** Sending no bytes succeeds [partial]. TcpChannel::Send of an empty string with the errno value explicit. Refuted: Send of zero bytes consults a stale errno (tcp_channel.cc), so an empty raw heartbeat body is reported as a failed send. Proved: it never alters wire or buffer, and succeeds when errno is EAGAIN/EINTR.
* **C51** A service's close is reported at most once [partial]. TcpChannel close notifications counted over all histories. Refuted: schedule_close_ plus a write event that drains the buffer closes twice (and delivers data in between). Proved: at most once when the service is not scheduled to close.
* **C52** The server's connection count is exact and bounded [proved]. IOService transition system; invariant count = size of the connection set. 
* **C53** The stop callback runs exactly once [partial]. same system, ghost count of stop callbacks. Refuted: a connection closing just before Stop is removed twice, both removals find the set empty and run the callback. Proved: at least once, never early, exactly once when nothing closes on its own around the stop.
* **C54** Each connection's close is reported exactly once to the server delegate [partial]. same system, ghost count of close reports. Refuted by the same history. Proved: at least once always; at most once before a stop; exactly once when nothing closes on its own around the stop.
* **C55** An empty Bloom filter contains nothing [partial]. Bloom model with arbitrary initial memory. Refuted: the bit table is malloc'ed and never cleared (bloomfilter.cc:32). Proved when the memory happens to be zero.
* **C56** DistinctCount never exceeds the number of keys [proved]. CountMin model; distinct counter against the set of keys. 
* **C57** The Maglev router always answers [partial]. router over the C35 loop. Refuted by the same non-termination as C35 for adversarial hashes; proved when no client has skip 65536; lookup before StartRouter is a division by zero.
* **C58** Ring hash placement depends only on the set of clients [partial]. ring built from permuted insertion orders. Refuted under virtual node hash collisions (first insertion wins); proved without collisions.
* **C59** HTTP messages are delivered whole, however the bytes were cut [proved]. llhttp callback context over every way of cutting an abstract event stream. llhttp is a parameter: it may cut names, values, url and body anywhere, but reports each header name and value at least once.
* **C60** An HTTP message does not depend on earlier messages of the connection [partial]. same context, two messages in sequence. Refuted: OnMessageBegin clears half_hdr_field_ twice and half_hdr_value_ never, so a trailer's value is prepended to the first header of the next message. The partial theorem states exactly what is delivered.
* **C61** An encoded HTTP response can be read back [partial]. EncodeRequest/EncodeResponse as byte strings, read back by an independent reader. Refuted for codes missing from the table (e.g. 429): no status line. Proved for the 40 listed codes, headers without CR/LF.
* **C62** The announced HTTP body length is the length of the body sent [partial]. same encoder with zlib as a parameter. Refuted: InsertHeader does not overwrite, so a correct user-set Content-Length is stale after compression. Proved when Content-Length is left to the library or nothing is compressed.
* **C63** HTTP request end to end [proved]. encoder composed with reader and context. 
* **C64** HTTP response end to end [proved]. as C63 for responses. 
* **C65** Descriptor handlers run only for installed events, in order, none lost [proved]. descriptor table, epoll multiplexer and dispatch; ghost history; invariant. Descriptor table, epoll multiplexer and dispatch modelled; several loops interleave one API call at a time; handlers are arbitrary.
* **C66** The kernel watches exactly what was asked for [partial]. same model, kernel interest list against the installed events. Refuted: InstallFdEvent returns true although epoll_ctl refused. Proved when the kernel refuses nothing.
* **C67** A handler is called only with events it asked for [partial]. same model, argument of handler calls. Refuted: on EPOLLHUP/EPOLLERR the handler gets READ and WRITE though it asked for neither. Proved: exactly what it is called with for every report.
* **C68** An event reaches the object it was reported for, in that object's loop [partial]. same model with descriptor reuse (ghost generations). Refuted: a handler closes a descriptor whose event is pending, the number is reused in another loop: the stale event goes to the new object in the wrong thread. Proved when the descriptor was not closed since the report.
* **C69** SpinLock excludes [proved]. spin lock, one atomic access per step, any number of threads. One atomic access per step, sequential consistency on the single flag; unlock only by the holder.
* **C70** A LazyInstance is constructed once, before anybody uses it, and every get() returns [partial]. LazyInstance state word, any number of threads, throwing constructors allowed. Refuted in one case: after a constructor that throws no call of get() ever returns. Everything else proved (once, return only after construction; progress without throws).
* **C71** hasInstance() says whether the object exists [partial]. same system. Refuted: true while the constructor still runs (and after it threw). Proved: it says whether construction was started.
* **C72** An AccumulatorCollector counts every item exactly once [proved]. sharded accumulator, conservation over any commutative monoid. Shard operations atomic (they hold the spin lock, C69); T is any type with commutative associative += and T() as unit.
* **C73** Stop() delivers everything collected before it [partial]. same system with Stop(). Refuted: an item collected after its shard was swept in the last round but before Stop() is never delivered. Proved: only items since the collector thread last woke up can be missing.
* **C74** An AccumulatorCollector can be stopped and destroyed at any time [partial]. same system with object lifetime. Refuted: thread_ is uninitialised until Start(), so stopping or destroying a collector that was never started is undefined. Proved for started ones, with a bound on Stop().
* **C75** What the HTTP codec adds by itself [proved]. defaults added by BeforeSendRequest/Response, read back with C61's reader. Read back from the wire with the same reader as C61-C64; zlib is a parameter.
* **C76** A RepeatingTimer runs its task only while it is started [proved]. Interleaving model of caller, loop tasks, event objects and the condition variable; inductive invariant. The timing wheel is abstracted to the set of attached events (timing: C17-C21).
* **C77** RepeatingTimer::Stop() returns [partial]. same system; progress by induction on the task queue. Refuted: the remover sets 'removed' and notifies without the mutex, so the notification can fall between the caller's check and its blocking; and Stop() of an unstarted timer inside the loop waits for the loop it runs in. Proved: in careful use the call returns unless its wakeup was lost in exactly that way; inside the loop it never waits.
* **C78** Using a RepeatingTimer never crashes [partial]. same system with freed objects and CHECKs as outcomes; inductive invariant of careful use. Refuted in six ways (stop or restart in own callback, stop of an unstarted timer, destructor returning before cv.notify_all, start outside + stop inside, destruction after the loop stopped). Proved: careful use crashes only by the notify-after-destruction race, and not at all inside the loop.
* **C79** Every connection attempt of a client is reported exactly once [proved]. event-driven model of Client and Connector (Model/ClientPool.v); counting invariant over histories (dialed = reports + cancels + in progress, per attempt). Every attempt: dialed = reports + cancels + in progress; cancelled only after Finalize.
* **C80** The report of a connection attempt tells the truth [partial]. same model, epoll flags translated by the model of FdEvent; refuted by a concrete run, exact condition proved by case analysis of a step. Refuted: HandleEvent tests the READ flag, so an established asynchronous connection (EPOLLOUT only) is reported as failed. Proved: exact condition; no false success; connects that complete at once are reported truly.
* **C81** The client loses no socket [partial]. ownership state of every socket; refuted by a concrete run; invariant: open iff in progress, leak only through that event. Refuted: a refused asynchronous connect leaks its socket (ReleaseOwnership before getpeername). Proved: that is the only leak.
* **C82** A client does not hold more connections than configured [partial]. refuted by a concrete run, and unboundedly by an inductive family of runs; potential-function bounds for the cases that hold. Refuted: 3 wanted, 5 made; no bound at all when peers close (2 wanted). Proved: a pool of one holds at most one; without closes at most req - 1 + min(10, req).
* **C83** A client short of connections keeps trying [partial]. refuted by a 12-step run that ends in a dead pool; invariant (count_ <= attempts in progress) for histories with writable-only events. Refuted: count_ is not updated on success and can stop the pool for good (C83_dead_pool). Proved for histories in which attempts in progress get writable-only events.
* **C84** Finalize closes every connection and a client can be destroyed [partial]. refuted by three runs; invariant of the winding-down pool for Finalize with nothing under way. Refuted: a queued dial connects after Finalize and stays open; destruction with a queued dial or an unprocessed close is use after free. Proved when no dial is under way at Finalize.
* **C85** A request finds a ready connection if there is one [partial]. modular arithmetic; refuted at 12 channels, proved up to 11, soundness for any counter. Refuted for 12 or more channels. Proved up to 11 (counter not advanced by other threads and not wrapping during the search) and soundness for any counter.
* **C86** Redials back off by 10 ms per failure up to 10 s [partial]. refuted (uninitialised member); invariant tying the interval to failures and redials since the last success. Refuted for the first redials of a new client (interval uninitialised). Proved: always within 0..10000; after a success between 10 * redials and 10 * failures, exact when every failure schedules a redial.
* **C87** The ring list holds exactly the nodes put on it, in order [proved]. pointer-level heap model (Model/Lists.v); invariant [holds] (ring adjacency + disjointness) preserved by every operation, for any number of lists (Proofs/ListProofs.v) 
* **C88** The two-sentinel list answers and holds what its calls say [proved]. pointer-level heap model; invariant [dholds] preserved; answers compared with the abstract sequence (Proofs/DListProofs.v) 
* **C89** LinkedList::size() is the number of nodes on the list [partial]. refuted: PopAndRemove leaves size_ alone; proved for programs that never pop size() drifts by one with every PopAndRemove (linked_list.h:112-118); proved for programs that never call it
* **C90** Destroying a DoubleLinkedList, or moving a node to another list, is safe [partial]. refuted: the destructor reads node->next_ after Remove cleared it (proved for every non-empty list); pushing a node that is on another list is accepted and breaks that list destructor of every non-empty list is UB (node->next_ read after Remove nulls it); pushing a node held by another list silently breaks that list; the empty list's destructor is safe
* **C91** The lock-free free list never hands out a node twice [proved]. interleaving model of every atomic operation (Model/FreeList.v); ghost status per node + counting invariant refs = weight(status) + temporary references (Proofs/FreeListProofs.v) 
* **C92** The lock-free free list never loses a node [proved]. from the same invariant: at rest no node is pending; lone runs computed symbolically 
* **C93** try_get returns NULL only when the free list is empty [partial]. refuted by a two-thread run (the insertion is left to a thread that still holds a reference); proved for calls that overlap no other false: while another thread holds a temporary reference, add() returns before the node is on the list (freelist.hpp:22), so the adder's next try_get may return NULL; proved for calls overlapping no other call
* **C94** The double-width CAS free list is exclusive, complete and honest about emptiness [partial]. invariant on tags and snapshots (Proofs/FreeListDcasProofs.v); refuted without a bound (one-bit tag ABA run), proved for fewer head changes than tag values needs fewer than 2^w head changes (w = bits of uintptr_t): with a wrapping tag the ABA run is exhibited
* **C95** Start returns, with the loop running [partial]. interleaving model of the loop thread and any number of clients with mutex, condition variable and call_once (Model/LoopLife.v); statement refuted by two concrete schedules and an invariant showing the call can never return; partial theorems by invariants (running without quit, no starter asleep after the announcement) and constructed continuations. Refuted as stated (quit served before the starter tests running_; lost wake-up because notify_all is called without the mutex). Proved: started means running, and every pending Start can return until the announcement and after one that no starter missed.
* **C96** A stopped loop is silent [partial]. same model; refuted by a concrete schedule (final drain after running_ is cleared); destructor and stopped-for-good parts by invariants. Refuted for SyncStop/WaitLoopEnd: running_ is cleared before the final drain. Proved for the destructor; after WaitLoopEnd the loop is stopped for good.
* **C97** Stopping a loop terminates [partial]. same model; refuted by a lost-wakeup schedule for SyncStop/WaitLoopEnd and for the destructor; partial theorems by invariants and constructed continuations (with spurious wake-ups; before the loop thread has ended; after a last notification no waiter missed). Refuted: the last notify_all may fall between the waiter's test and its sleep. Proved: a return is always possible before the loop thread has ended, with spurious wake-ups at any time, and after a last notification nobody missed.
* **C98** A delayed task runs exactly once and never before its delay, counted from the call [proved]. Model/DelayTask.v models the 64-bit arithmetic of TimerTaskHelper::Run and arms the timer on the wheel model; the theorems compute the remaining delay for all inputs and reuse the wheel refinement (C17, C18). 
* **C99** Timers are freed exactly once, also when the loop goes down [proved]. Model/DelayTask.v models timeouts_next(TIMEOUTS_ALL) and FinalizeTimeWheel over the wheel; proved from the wheel invariant for every run. 
* **C100** Splitting at a one-character delimiter yields exactly the fields [proved]. Model/StrUtil.v models std::string::find/substr and the Split loop on indices; proved by induction on the loop, with uniqueness of the field decomposition. 
* **C101** Splitting at a longer delimiter, and leaving out empty fields [partial]. same loop with a delimiter of several characters (`previous = current + 1`): the expected statement is refuted by a concrete text; what does hold is proved for every delimiter. 
* **C102** Splitting by getline agrees with Split except for one empty last field [proved]. getline modelled as consuming up to a delimiter; compared with Split through the uniqueness of fields. 
* **C103** Prefix, suffix, replace and trim [proved]. direct functional models of find/rfind/find_first_not_of; proved against concatenation specifications. 
* **C104** Contains decides whether a string occurs in another [partial]. std::search modelled by first occurrence; the comparison with end() makes ("","") false: refuted, proved for every other pair. 
* **C105** Case-insensitive equality [partial]. the three-iterator std::equal is modelled with UB when it would dereference str2.end(); refuted, with the exact characterisation of result and UB proved. 
* **C106** Parsing unsigned numbers [partial]. operator>> of an istringstream modelled as (stored value, failbit, eofbit); ParseTo returns good(), which is false after a clean number: refuted, exact characterisation proved. 
* **C107** Parsing signed numbers [partial]. std::stoi/stoll modelled with both exceptions; refuted (trailing characters), exact characterisation proved. 
* **C108** Parsing an address gives back its components [partial]. Model/UrlUtils.v models the searches with their uint32_t lengths; the round trip over Spec/UrlSpec.v `render` is refuted by an '@' in the query and proved under the stated extra hypothesis; totality for all texts. 
* **C109** ParseURI [partial]. same model; round trip proved, the port claim refuted by an overflowing port. 
* **C110** IP block membership [proved]. IPAddressPrefixCheck with its byte loop and mask, the mixed-family conversion; theorem: result = equality of the leading bits (bit-level spec), also stated as equality of quotients of the address numbers; mixed case reduced to mapped addresses. 
* **C111** Common prefix and mask length [partial]. both loops of CommonPrefixLength; theorem: agreement up to n and difference at n. MaskPrefixLength refuted in debug builds (DCHECK_EQ aborts on every IPv4 mask), proved otherwise. MaskPrefixLength aborts on IPv4 masks in debug builds; everything else proved.
* **C112** IPv4-mapped conversion [partial]. refuted (every back conversion is undefined behaviour: range over two arrays); the mapping and its recognition proved. Back conversion is undefined behaviour for every address; mapping and recognition proved.
* **C113** Classification of addresses [partial]. range tables against numeric CIDR blocks; refuted for mapped addresses (undefined behaviour); v4, other v6, loopback, link-local, zero proved. Fails for IPv4-mapped addresses (undefined behaviour); all other classes proved.
* **C114** Endpoints and socket addresses [partial]. byte layout of sockaddr_in/in6; round trip proved for both families; peer/local endpoint refuted for IPv6 (28-byte address read from a 16-byte buffer), proved for IPv4; self-connect proved for IPv4. IPv6 peer/local endpoints are read out of bounds; the rest proved.
* **C115** IP literals, host names, CIDR blocks [partial]. inet_pton4 (glibc algorithm) modelled and characterised as exactly the dotted quads; inet_pton6 is a parameter. Refuted: reading past a string_view's end, bracketed IPv6 always rejected, every well-formed CIDR rejected (junk after it makes it accepted). Three refuted sub-claims (text inside larger text, bracketed IPv6, CIDR); IPv4 literals fully characterised.
* **C116** Text of an address [partial]. refuted (NUL-padded to 15/45 bytes; invalid addresses print as IPv6); proved up to the first NUL, with port, and round trip. ToString is NUL-padded; text up to the first NUL, with-port form and round trip proved.
* **C117** Orderings of addresses and endpoints [proved]. orderings characterised by (family, number, port); strict total order proved. 
* **C118** Clamped and checked 64-bit arithmetic is exact or saturated [proved]. Model/TimeDelta.v transcribes the portable and builtin implementations; both are shown equal to the exact result with a range check (case analysis and linear arithmetic over Z). 
* **C119** Sums and differences of time deltas follow the saturation and infinity rules [proved]. td_add/td_sub against Spec/TimeSpec.v saturate; closed form for the infinities. 
* **C120** An infinite delta stays infinite when a finite delta is added or subtracted [partial]. refuted by Max + (-1us); exact condition under which the infinity survives is proved. refuted by Max + (-1us), which is finite; missing: nothing more can hold, the exact condition is proved
* **C121** Negation, magnitude and scaling of time deltas are exact or saturated [proved]. td_neg/td_mul/td_div/td_magnitude against the exact Z operation and saturate. 
* **C122** Conversions between delta units [proved]. each reader and builder against Z.quot, Z.div and saturate. 
* **C123** An extreme argument to a delta constructor gives an infinite delta [partial]. refuted by FromNanoseconds, which divides; other units and the nanosecond behaviour are proved. refuted for nanoseconds; proved for the other units
* **C124** Integer division and remainder of deltas [proved]. td_intdiv/td_mod against the division identity, magnitude and sign of the remainder. 
* **C125** Rounding a delta down or up to a multiple [proved]. floor_multiple/ceil_multiple of Spec/TimeSpec.v (largest multiple not above ...), uniqueness proved too. 
* **C126** Rounding a delta to the nearest multiple [partial]. refuted at the top of the range (adding half an interval saturates); proved when |d| + |i|/2 stays below the limit. refuted at the top of the range; proved whenever the delta plus half the interval stays finite
* **C127** A delta converted to a timespec is normalised and exact [partial]. refuted by the infinite delta (signed overflow) and by negatives; proved for non-negative finite deltas, negatives characterised. refuted for infinite and negative deltas; proved for non-negative finite deltas
* **C128** Moving a time saturates, and the distance between any two times is defined [partial]. refuted: operator- between times is a raw subtraction; exact condition for definedness proved. refuted for times more than 2^63 us apart; shift and near differences proved
* **C129** Seconds since the epoch round trip through Time [partial]. refuted by 1601-01-01, whose internal value 0 means 'null'; proved for the other seconds in the stated range. refuted by 1601-01-01 and by the far past; proved for other seconds in range
* **C130** A timeval round trips through Time [partial]. refuted: LTCHECK(tv_usec > 0) terminates on whole seconds; proved for the rest. refuted for whole seconds; proved for non-zero microseconds
* **C131** UTC calendar conversion agrees with the Gregorian calendar [proved]. gmtime_r/timegm are function parameters satisfying the calendar contract of Spec/TimeSpec.v (day_number is an independent day count); explode/from_exploded/midnight related to it, existence of such a calendar proved. gmtime_r/timegm are parameters with the Gregorian contract
* **C132** Clock structure conversions [proved]. exact arithmetic of ms_to_timeval and ConvertTimespecToMicros. 
* **C133** Every date string is handled safely [proved]. Model/PrTime.v transcribes the parser with explicit reads (UB outside the string) and 32-bit overflow; an invariant on the parser's variables is preserved by every token, for every string and the loop's fuel of 1001 tokens. 
* **C134** RFC 1123 dates parse to exactly the instant they name [proved]. symbolic execution of the parser token by token (digits as variables), then exactness of normalise/implode against Spec/TimeSpec.v day_number. 
* **C135** Out-of-range day, hour, minute and second carry over [proved]. same, with Spec/DateSpec.v lenient_seconds giving the meaning of out-of-range fields. 
* **C136** Named zones shift the time by their documented offset [proved]. same, over the table of zone names in the statement. 
* **C137** Numeric zones shift the time by exactly their offset [partial]. refuted by -0001; every other two-plus-two digit offset proved. refuted by the zone -0001, read as +0000; proved for every other offset
* **C138** ISO 8601 dates with microseconds parse exactly [proved]. symbolic execution of the numeric date and fractional time branches. 
* **C139** Normalising and imploding calendar fields is exact [proved]. the carry chain and the month loops by induction on the number of days, invariant: the denoted day number. 
* **C140** Different dates parse to different times [partial]. refuted by year 0 (truncating division in COUNT_LEAPS); proved from year 1. refuted: 31 Dec 0000 = 1 Jan 0001; proved for years 1-9999
* **C141** HTTP answers reach the wire in the order given [proved]. `HttpConn.v` transition system of one connection (socket event phases, loop batches, nested tasks, acceptor thread); invariant on wire ++ buffer over every run. 
* **C142** Unsent answers are waiting for the socket [partial]. invariant: unsent bytes imply a queued flush, a refused socket with write interest, or a failed write; refuted for the uninitialised `flush_scheduled_`, proved with the flag initially false. 
* **C143** A closed HTTP connection has sent its answers [partial]. refuted by a run with a short write after CloseService; proved when the socket was not full at the last attempt. 
* **C144** An HTTP connection is never used after it was freed [partial]. freed = no holder left; refuted by four concrete runs; proved safe before the first close and, with one loop, unless an answer follows the close. 
* **C145** The close of an HTTP connection is reported once [partial]. counted over the event trace; refuted (each completely sent answer to a close request reports twice); proved for keep-alive traffic. 
* **C146** Pipelined HTTP requests are answered in order [partial]. order of the answer ids in the trace; refuted; proved if every handler answers before it returns. 
* **C147** An HTTP request is answered at most once [partial]. refuted via `Response`; proved for the guarded replies by an invariant over answered and in-flight ids. 
* **C148** A malformed HTTP request ends the connection [proved]. invariant over the trace after the parse error; exact bytes of the 400 write. 
* **C149** A query on the inverted index returns exactly the matching documents [proved]. whole life of an index (register, add, build, query) as a function; the invariant of the posting-list table and of the merger proved by induction over fields and values; answer compared with the declarative `matches` 
* **C150** A query on the inverted index returns [partial]. exact characterisation (`survivable`) of the queries that return; full statement refuted 
* **C151** Answers of the inverted index do not depend on checksums [partial]. pigeonhole over pairs of ids gives a colliding pair for every 64-bit checksum, hence a wrong or missing answer; proved for lists with a fresh checksum 
* **C152** Bitmap posting lists: set, clear, union and difference are exact [proved]. bitmaps as lists of 64-bit words; bit-level specification of each operation by Z.testbit lemmas 
* **C153** Intersection of bitmap posting lists [partial]. same bit-level specification; refuted for a longer left operand (memset of words instead of bytes), proved otherwise 
* **C154** Range fields of the inverted index find the numbers of their ranges [partial]. ParseRange/ParseToInt modelled per operator>>; full statement refuted (a lone number is never found, the lower bound is ignored), the exact behaviour proved 
* **C155** Index answers are independent of insertion and iteration order; a built index is final [proved]. corollary of the exactness theorem, invariance of its specification under permutation 
* **C156** checked_cast is exact [proved]. the templates as functions of the types (signedness and width); the range checks are shown equal to the comparison in Z, by computation over the type pairs and linear arithmetic over the values. 
* **C157** saturated_cast gives the nearest value [proved]. both paths (constant and run time) are shown equal to the clamp in Z. 
* **C158** Comparisons of different integer types compare the values [proved]. the comparison structs with their range checks and built-in comparisons in the common type, and SafeCompare's promotion, are shown equal to the comparison in Z. 
* **C159** Checked expressions are exact or invalid [proved]. expressions are a syntax tree with static types; the state machine of CheckedNumeric is run over it, induction over the tree. 
* **C160** A quotient that fits is valid [partial]. refuted (int64 -4 /= uint64 2 is invalid); the exact result of CheckedDivOp for all types is proved, and completeness for the other type pairs. 
* **C161** A valid remainder is the remainder [partial]. refuted (CheckMod(int64 -5, uint64 3) is valid with value 2); exact when no signed type meets uint64_t or both operands are non-negative. 
* **C162** Checked shifts [proved]. the reversibility test of the shift is shown equivalent to the product fitting; no bound on the shift amount. 
* **C163** Clamped shifts [proved]. as C162, with the saturation value for every larger amount. 
* **C164** Clamped subtraction, multiplication, negation and absolute value [proved]. the builtin with overflow and the choice of the saturation value by the signs is shown equal to the clamp. 
* **C165** Clamped addition [partial]. refuted (ClampAdd(int8 -5, uint8 3) is 255); exactly the failing cases are characterised. 
* **C166** Clamped division and remainder [partial]. refuted (ClampedNumeric<int64>(-5) /= uint64(3) is INT64_MIN); exact in the cases listed by the theorem. 
* **C167** Negating a checked number [partial]. refuted (unsigned negation is valid and wraps); exact for signed types. 
* **C168** Maximum and minimum across types [proved]. from C157 and C158 and the ranges of the promotion types. 
* **C169** A websocket's callbacks come in order [proved]. state machine of one connection (handshake answers of llhttp given by the environment, frames through the parser and codec models); a scanning automaton over the trace as invariant of every run. 
* **C170** A valid websocket upgrade request opens the websocket [partial]. refuted under llhttp's documented HPE_PAUSED_UPGRADE; the opening conditions by induction over runs; positive part by computation for all requests when the parse succeeds. 
* **C171** The end of a websocket is reported exactly once [partial]. refuted by two runs; counting and reporting by induction over runs. 
* **C172** Nothing is delivered after a CLOSE frame [partial]. refuted by a run; the later-reads part from C169. 
* **C173** A PING is answered by a PONG with its payload [partial]. refuted by a run; pairing and counting by an append-closed trace property over all runs. 
* **C174** Clients mask every frame, servers none [partial]. refuted by a run; the exact exception list by the same induction. 
* **C175** A websocket client verifies the server's accept value [partial]. refuted by a run; opening conditions from C170. 
* **C176** Nothing but the handshake is sent before a websocket is open [proved]. scanning automaton plus the connection invariant. 
* **C177** A websocket client may be released at any time [partial]. small machine of the client object, the loop's queue and the connector; refuted by three schedules; the safe release proved for every prefix and suffix. 
* **C178** OnClose only follows OnOpen [partial]. refuted by two runs; topic agreement from the automaton. 
* **C179** A server opens only for proper upgrade requests [partial]. refuted by a run; opening conditions from C170. 
* **C180** Websocket messages reach the opened topic, each once and in order [proved]. reassembly (C10) lifted through the connection: its events are the image of the codec's actions. 
* **C181** Send on a closed websocket transmits nothing [partial]. refuted by a run; client part from C176. 
* **C182** A metrics container counts and sums every value [proved]. container as a map from names to metric records; invariant `summ` (each entry is the summary of the values recorded under its name) by induction over the items. 
* **C183** Reported minimum and maximum [partial]. same invariant; min/max are those of the values and 0; refuted by the values 5, 7. 
* **C184** A histogram counts each value in its bucket [partial]. bucket vector equals the tally of bucket_of over the values; refuted by range 500..1000, value 900 and by range -1000..1000, value -500. 
* **C185** The percentile of a histogram is right up to one bucket [proved]. loop invariant on prefix sums of the buckets, prefix sums counted by bucket_of. 
* **C186** The percentiles in the report are right up to one bucket [partial]. loop invariant of the vector version; refuted by five values of 10. 
* **C187** Merging containers loses nothing [partial]. merge of two summaries by induction over the merged entries; refuted by histograms. 
* **C188** Recording is safe for every choice of names [partial]. corollary of the container invariant; refuted by one name used as both kinds. 
* **C189** Every recorded value is in exactly one place [proved]. transition system of both threads with queues as bags; invariant relating the bag of stashed values to those in queues, containers and reports (Permutation). 
* **C190** Reports keep the configured interval [partial]. invariant last report time = time of newest report; refuted by a 6 s run with interval 30. 
* **C191** The reported average lies between the extremes [partial]. corollary of C182's invariant; refuted by two values of -5. 
* **C192** Stopping the stash reports what was recorded [partial]. refuted by a three-step run; accounting from C189. 
* **C193** A TLS connection transmits the bytes sent, in order [proved]. Model/TlsChannel.v over an abstract OpenSSL that keeps refused records; invariant wire ++ queue = sent and kept record is a prefix of the queue, by induction over loops and histories. 
* **C194** A TLS connection survives a full socket buffer [partial]. counterexample; theorem that any refused Send leads to the close; survival proved for moving-buffer mode and for unrefused sends, by an invariant on the kept record. 
* **C195** A writable event with nothing to send is harmless [partial]. counterexample with errno left over; direct proof for EAGAIN/EINTR. 
* **C196** TLS reading delivers all decrypted bytes [proved]. induction over the answers of SSL_read against an independent description of delivered chunks. 
* **C197** Queued TLS data always waits for writability, and only then [proved]. invariant over histories. 
* **C198** A handshake that must write waits for writability [partial]. counterexample; partial theorems for queued data and for reading. 
* **C199** A context with one CA source can be created [partial]. Model/TlsCtx.v; counterexample, theorem that single sources always fail, full characterisation otherwise. 
* **C200** UseVerifyCA trusts what it is given [partial]. counterexample; exact result for a file alone. 
* **C201** The default server context is a server context [partial]. counterexample; the two defaults are equal. 
* **C202** HTTP/2 is negotiated when offered [proved]. Model/TlsCtx.v select_proto; induction over encoded name lists, and safety by induction on the offset. 
* **C203** An HTTP/2 request reaches the handler once, complete [partial]. callbacks of nghttp2 as events on a connection record; per-stream view with a simulation (run = fold of the stream's own events), then fold over a whole request 
* **C204** Known header names are recognised, and no others [proved]. lookup_token generated from the switch; soundness by cases on length, completeness by computation on the 37 names 
* **C205** HTTP/2 streams do not disturb each other [proved]. the same simulation: two runs that agree on a stream give the same view 
* **C206** The HTTP/2 client gets the response to its request [partial]. simulation, plus the header-field lemma of C207 
* **C207** HTTP/2 response headers reach the client [partial]. IgnoreCaseEquals of StrUtil (std::equal with three iterators); induction over the fields 
* **C208** A large HTTP/2 response does not close the connection [partial]. provider length against the limit nghttp2 asks for; invariant h_dead = false for small answers; explicit failure for large ones 
* **C209** A client request over HTTP/2 is transmitted [partial]. the stub as it is 
* **C210** Server push reports its fate once [partial]. case analysis of PushPromise over all states 
* **C211** Waiting for a descriptor returns the first notification [proved]. IoWait.v: IOEvent state machine (result, resumer, timer, coroutine position); proved by induction over the notifications with a shape invariant. 
* **C212** Descriptor events between waits are harmless [partial]. IoWait.v; an empty std::function call is CheckFail; refuted by one event, partial by the shape invariant. 
* **C213** Waiting for a descriptor respects its time limit [partial]. IoWait.v; refuted with limit 0, partial for positive limits. 
* **C214** Queued timers fire on time [partial]. TimerQueue.v: heap, slots, free list, log of invocations; cancel and reuse refutes; partial by an invariant tracking every timer added. 
* **C215** A cancelled queued timer never fires again [proved]. TimerQueue.v; the object of a cancelled timer is in no slot afterwards (invariant over histories). 
* **C216** Adding a timer disturbs no other timer [partial]. TimerQueue.v; free list invariant (distinct, unowned) for histories whose cancellations name registered timers. 
* **C217** No timer brings the process down [partial]. TimerQueue.v; asserts are CheckFail; range invariant of heap and free list. 
* **C218** The event loop does not sleep past a timer [proved]. TimerQueue.v; every registered timer keeps a heap entry with its due time. 
* **C219** Reference counted pointers are safe [proved]. RefPtr.v: memory of counted objects and pointer variables; invariant count = owners + leaked, deleted iff none. 
* **C220** A deferred function runs exactly once [partial]. RefPtr.v: cleanup objects with moved-from states. 
* **C221** A reply runs in the poster's loop [partial]. TaskReply.v: several loops with scheduled, nested and batch queues; refuted by a two-loop run; conservation of closures gives the partial. 
* **C222** Tasks and replies run once, in order, where asked [proved]. TaskReply.v; conservation (count) invariant and an order invariant over all interleavings. 
* **C223** A task with a reply can be posted to any running loop [partial]. TaskReply.v; CHECK(running_) is CheckFail; refuted by quit, partial by invariant. 
* **C224** Line mode hands over the lines of the file [partial]. SourceLoad.v getline loop; refuted with a terminated line, pieces between newlines proved by induction on the fields. 
* **C225** Loading ends [partial]. SourceLoad.v Load with fuel; refuted by an unreadable path, termination with a stable result for readable files by induction. 
* **C226** Result 0 means that everything was loaded [partial]. SourceLoad.v Load; refuted by a missing file, exact meaning of the result by induction over the files. 
* **C227** A row is parsed to what its texts mean [partial]. SourceLoad.v ParseContent over StrUtil.v Split; refuted for a two-character delimiter, induction over header and fields for one character. 
* **C228** Rows with a wrong number of fields are left out [proved]. SourceLoad.v ParseContent/OnReadData; direct from the split lemma. 
* **C229** The header line can be left out [partial]. SourceLoad.v StartLoad; refuted, independence from the flag by induction over the lines. 
* **C230** A column without usable text gets its default [partial]. SourceLoad.v HanleColumn; refuted for int, case analysis for JSON. 
* **C231** The loaded table is what the files say [proved]. SourceLoad.v StartLoad end to end; induction over files and rows with the "last row wins" invariant. 
* **C232** Any bytes can be parsed [partial]. SourceLoad.v ParseContent; refuted with 2147483648, totality without int columns by induction. 
* **C233** A deflate round trip returns the original [proved]. the growing output buffer is modelled byte by byte around an abstract zlib (Model/Gzip.v); loop invariant over the doublings. 
* **C234** A gzip round trip returns the original [partial]. same model; decompress_gzip lacks the final resize, so the exact padded result is proved and the equality refuted for every zlib. 
* **C235** Decompression ends and reports completeness exactly [proved]. same loop invariant with each way a stream can end. 
* **C236** Compression of strings of any size [partial]. the 32-bit avail_in is in the model; counterexample of 2^32 bytes handled symbolically. 
* **C237** Compressed HTTP bodies arrive unchanged [partial]. the HTTP codec's model instantiated with the compression model. 
* **C238** RandGenerator is uniform below its range [proved]. the rejection loop over a list of draws; residue classes. 
* **C239** RandInt is uniform between its bounds [proved]. 64-bit unsigned and 32-bit signed conversions are modelled; reduces to C238. 
* **C240** RandDouble lies in [0, 1) and is uniform [proved]. the mask is a remainder mod 2^53; the double is exact, so a rational. 
* **C241** RandBytes fills the whole buffer or aborts [proved]. induction over a script of read results. 
* **C242** itoa_r writes the integer's text [proved]. buffer memory with explicit writes; digit loop against a positional-notation specification. 
* **C243** itoa_r stays within its buffer and truncates as documented [partial]. same, all failing paths. 
* **C244** Every accepted connection is handed over once, in order [proved]. state machine of acceptor, kernel queue and clients (Acceptor.v); balance invariant over all runs 
* **C245** A listening acceptor makes progress [proved]. same; induction over the polls 
* **C246** The owner is told the client's address [partial]. accept's 16-byte sockaddr and IPEndPoint::FromSockAddr on it; IPv4 proved, IPv6 refuted 
* **C247** A stopped acceptor refuses clients [partial]. same state machine; refuted, exact behaviour proved for every history 
* **C248** Restarting an acceptor loses nothing [proved]. same state machine; restart after any history 
* **C249** A failing listen is reported [partial]. serve as composition of socket, bind, listen; refuted, abort exactly when one fails 
* **C250** UDP datagrams are reported whole [partial]. HandleRead over queues, batches of 100 and interruptions (UdpService.v); refuted at 1921 bytes, cut-to-1920 theorem 
* **C251** A UDP service can be restarted [partial]. StartService and StopService as operations of FdEvents.v; refuted for every descriptor number 
* **C252** A UDP service closes no descriptor but its own [partial]. same; refuted for every descriptor number 
* **C253** A descriptor number is usable again after a UDP service [partial]. same; refuted for every descriptor number 
* **C254** The last registration for a scheme serves it [proved]. registry as an association list, RegisterCreator as a fold (Serving.v); last/never registered in Spec/ServeSpec.v 
* **C255** Schemes named for TLS are encrypted [partial]. channel choice of server and client per codec class; refuted for rawSSL, proved for the other built-in schemes 
* **C256** The coroutine server encrypts TLS schemes [partial]. handle_connection of the coroutine server; refuted, never encrypted for any registry 
* **C257** An accepted address is served [partial]. ServeAddress's check against what a later connection finds; refuted for empty creators 
* **C258** A client for an unsupported scheme reports an error [partial]. OnConnected's CHECK; refuted, exact characterisation 
* **C259** The connection limit holds with several loops [partial]. loops interleaving between check and increment; invariant gives the bound, an explicit schedule reaches it 
* **C260** Every StopServer callback runs [partial]. server bookkeeping over rounds of any size; refuted for overlapping rounds 
* **C261** Connections go to the loops in turn [partial]. shared 32-bit counter; refuted, permutation theorem for a lone server 
* **C262** Only the first answer to a raw request counts [proved]. state machine of the context over all sequences of answers 
* **C263** Every MySQL query is called back exactly once [proved]. Model/Mysql.v steps a connection (iter: one round of HandleState); invariant `good` (a query is in process exactly in the query states) gives no abort; `answered ++ open = asked` by induction over histories. 
* **C264** A query's callback sees the server's code and rows [partial]. `talk` (Spec/MysqlSpec.v) is the server's side; refuted with garbage in err_no_; proved by induction over conversations where err_no_ is 0 or the server does not keep queries waiting. 
* **C265** A NULL column can be told from a text [partial]. refuted (NULL and "NULL"); injectivity elsewhere. 
* **C266** Close() closes an idle MySQL connection [partial]. refuted (no event drives the state machine); proved: it stays, and closes after the next query. 
* **C267** A lost MySQL connection is closed [partial]. refuted while rows are fetched; proved for the other phases; C267_fetch says what happens instead. 
* **C268** Queries given to a closed MySQL connection are answered [partial]. refuted; the closed state is an invariant under all other operations, and destruction answers -1. 
* **C269** Closing a MySQL connection ends [partial]. refuted by a callback that asks again; terminates when retries are well-founded. 
* **C270** A session's callback set from its own callback survives [partial]. refuted (the callback is cleared after it ran); each callback runs once. 
* **C271** The MySQL client uses a ready connection [partial]. refuted (only one connection is tried); rotation proved for n successive requests. 
* **C272** The first Maglev table is complete [partial]. Model/Maglev1.v (give/round/rounds over the probe of C35); completeness by the invariant "every probed position is filled"; refuted with the wrapping skip as in C35. 
* **C273** Shares of the first Maglev table follow the weights [partial]. refuted by weights 1 and 3 on a ring of 13; counts per round give slots = weight + t or weight + t + 1. 
* **C274** An endpoint of weight 0 gets no slots [partial]. refuted by an example; counts as for C273. 
* **C275** Parts of a string view are the parts of the viewed bytes [proved]. a view is a buffer, an offset and a size (Model/StringView.v); at/front/back/remove_*/copy/substr transcribed; proved against the viewed byte list (`text`) by list reasoning 
* **C276** Comparison of string views is the lexicographic total order of their bytes [proved]. compare as memcmp of the common length and then the sizes; operators transcribed in both overloads; proved equivalent to the inductive lexicographic order of Spec/StringViewSpec.v by induction on the bytes 
* **C277** starts_with and ends_with are exact and never throw [proved]. starts_with/ends_with through substr and compare, noexcept as an abort; proved by splitting the byte list 
* **C278** find gives the first occurrence [partial]. find through std::search (its definition as a recursive function); full statement refuted by the empty view; the rest proved by induction on the haystack 
* **C279** rfind gives the last occurrence [proved]. rfind through std::find_end; proved by induction on the haystack, with the empty needle apart 
* **C280** find_first_of and find_last_of [proved]. std::find_first_of on the rest of the view and on the reversed beginning; proved with a general forward/backward search lemma 
* **C281** find_first_not_of and find_last_not_of [proved]. as C280 with the not_in_view predicate, itself proved to mean non-membership 
* **C282** A view of a string shows all of it; of a C string, up to its NUL [proved]. the constructors and to_string; strlen as the first NUL byte of the memory; proved by induction 
* **C283** The URL parser accepts exactly the HTTP request targets and reports their components [partial]. Model/UrlParser.v transcribes both state machines and the 16-bit field arithmetic; Spec/UriSpec.v gives the grammar by rendering components; both directions proved by induction over runs of characters per state; full statement refuted with a path of 65537 bytes 
* **C284** Path() is the path of the request's URL [partial]. url_ modelled with the number of its allocation and its capacity (libstdc++ growth), views by allocation, offset and length; refuted by concrete histories; the rest proved for any prior history 
* **C285** However a request URL is cut on arrival, Path() is right [proved]. induction over the parts, with the lemma that a target with a path stays one when more of a valid target is appended 
* **C286** GetUrlParam gives the parameters of the URL [partial]. params_ as a list of puts; refuted for "/?a=b"; the rest proved by induction over the history 
* **C287** One request, one answer, whichever threads call [partial]. Model/HttpCtx.v: one context, threads as numbers, each call two steps (read the flag and build; Response()). Refuted with two interleaved calls; NoDup of the calling threads by an invariant over the interleaving; the serial case by induction over non-overlapping traces. 
* **C288** The answer is what a call asked for [proved]. invariant relating heap, pending calls, posted functors and answers to the calls of the trace; "first wins" by induction over the later, non-overlapping calls. 
* **C289** Response sends the response as it was passed [partial]. refuted with a change between post and run; in-loop case by computation of respond. 
* **C290** Only the loop's thread touches the connection, in order [proved]. inductive specification [proper] of what the connection is told; the off-loop answers are a growing list. 
* **C291** Responsed() tells whether an answer is on its way [proved]. invariant: alive implies (did_reply_ iff something sent or queued); a dead connection stays silent. 
* **C292** No call on a context ends the process [partial]. CheckFail characterised step by step. 
* **C293** A coroutine task is started at most once [proved]. transition system of all loops (CoTasks.v); invariant that a task is in exactly one place or has been started 
* **C294** A task for a loop is started within its next round [proved]. invariants that follow the task through posted queue, nested list, sched_tasks_ and batch up to the end of the round 
* **C295** A task for a loop runs in that loop [proved]. same invariant: the place of a task with a destination belongs to that loop 
* **C296** Tasks of one thread are started in the order given [proved]. invariant: started ++ what waits, restricted to one producer, is what was submitted 
* **C297** A whole Run() takes every waiting task [partial]. counting invariant between the number still to take and the entries before the task; refutation by a concrete history refuted in full; proved if no other thread submits during that Run()
* **C298** co_go f is picked up by someone [partial]. the invariant of C297 after the posted registration; refutation by a family of histories, one for each number of rounds refuted in full for loop threads without a runner; proved for threads without a loop
* **C299** A loop that quits has started its tasks [partial]. quit does not disturb the invariant of C294, the final drain does the rest; refutation by a concrete history refuted in full; proved for tasks given by other threads before the quit
* **C300** Sched() comes back [proved]. invariant that follows the closure with its resume id through sched_tasks_ and batch to ready_list_ 
* **C301** One raw request, one answer [partial]. transition system of calls in two steps; invariant that a thread's call is pending, given or neither; refutation by a concrete history refuted in full; proved if calls do not overlap, and at most one answer for each thread
* **C302** The answer to a raw request is what was passed [proved]. invariant: what is pending or given was entered 
* **C303** No answer to a raw request is lost [proved]. invariant: sent plus queued is a permutation of what was given, with the order of other threads kept 
* **C304** A raw connection is closed exactly after a failed answer [proved]. invariant: the actions are a concatenation of sends, each failed one followed by a close 
* **C305** A redis connection is ready exactly when AUTH and SELECT were accepted [proved]. the handshake as a state before the codec of Resp.v; induction over the pieces with the reference parser of C11 (complete stream, and proper prefix) 
* **C306** Answers to AUTH and SELECT never reach a request [proved]. after the verdict the state is the idle state of C13, whose theorem on sequential requests applies 

## What is modelled, and what is assumed, per component

| Model file | Code | Assumptions / left out |
|---|---|---|
| IOBuffer | net_io/io_buffer.{h,cc} | buffers shorter than 2^63 (int64 casts exact); logging |
| LineCodec, RawCodec | net_io/codec/line, net_io/codec/raw | little endian host; the codec's channel is the IOBuffer of the connection; sending goes through the TCP model only by its byte string |
| Websocket | net_io/codec/websocket (ws_codec_service, websocket_parser.c) | pointer arithmetic as 64-bit; upgrade handshake not modelled here |
| Resp, Decimal | thirdparty/resp, net_io/codec/redis | strtol as C99 in base 10; allocation never fails |
| Base64, ByteOrder, Bytes | base/utils/base64, base/sys/byteorders.h | little endian host |
| TimeWheel | thirdparty/timeout/timeout.c, the timer half of event_pump.cc | WHEEL_BIT 6, WHEEL_NUM 4 as configured; clock values arbitrary but monotone where said |
| MsgLoop | base/message_loop/message_loop.cc | sequential consistency; moodycamel ConcurrentQueue by its contract: per-producer FIFO, a dequeue that fails saw every enqueue that happened before empty; eventfd counts |
| Coro, CoSync | base/coroutine/co_runner.cc, co_mutex.cc, wait_group.cc, base/memory/spin_lock.cc | fcontext switch = change of current coroutine; resume_id_ unbounded; C25 assumes a blocked lock() is woken only by its own resumer (dropped, and refuted, in C46) |
| ClientChan | net_io/clients/{client_channel,async_channel,queued_channel}.cc | operations run in the IO loop and do not re-enter; unordered_map iteration order is unspecified (every order covered); `intact` = freed node still holds its bytes |
| TcpChannel | net_io/tcp_channel.cc, io half of codec_service | kernel read/write results are an arbitrary script; lengths fit in int |
| IOService | net_io/io_service.cc, server/generic_server.h | one acceptor loop, loops FIFO (C23), object identities fresh |
| Lru | components/lru_cache | both compile-time variants; allocation never fails |
| Bloom, CountMin | components/bloomfilter, components/count_min_sketch | hash is a parameter; table operations atomic; initial memory arbitrary; width/depth are parameters (their computation from doubles is not modelled) |
| LoadBalance | net_io/common/load_balance/{maglev2,consistent_hash_map}, net_io/clients/router | hashes are parameters; fuel = rounds of the fill loop, with termination proved |
| BoolIndex | components/boolean_indexer | hash and std::sort are parameters; field names are integers; debug asserts are hypotheses; int overflow of sizes not modelled; only HasherParser and the default container |
| Http | net_io/codec/http (messages, parser context, codec service) | llhttp and zlib are parameters with stated contracts; tolower in the "C" locale; url_view/params, HTTP/2 not modelled; headers only through InsertHeader |
| FdEvents | base/message_loop/{fd_event,fdev_mgr,io_mux_epoll,event_pump}.cc | epoll by its interest-list contract; ghost generations name open file descriptions; one API call at a time; handler body = the operations that follow; handlers non-null |
| Sync | base/memory/{spin_lock,lazy_instance}.* | one atomic access per step, SC; unlock only by the holder; the constructor does not itself call get() |
| Accumulator | components/utils/data_accumulator.h | shard operations atomic (C69); `running_` is a plain bool (data race) taken as re-read each round; T a commutative monoid |
| RepTimer | base/message_loop/repeating_timer.cc, timeout_event.cc | calls serialised (as documented); wheel = set of attached events (timing: C17-C21); condition variable with spurious wakeups; running_ set with the last step of a call |
| ClientPool | net_io/clients/client.cc, client_connector.cc | every callback is one step of the work loop; kernel answers arbitrary; delayed redials in any order; channels reduced to their socket's state; SSL, codec creation, DialSync and the config's resolver not modelled |
| Model/Lists.v | base/queue/linked_list.h, double_linked_list.h | nodes are addresses, pointers `option addr`, dereferencing NULL is UB; single thread; Foreach (does not type-check when instantiated) not modelled |
| Model/FreeList.v | base/lockfree/freelist.hpp, freelist_dcas.hpp | one step per atomic operation, sequentially consistent (memory orders not modelled); nodes never freed; the weak exchange may fail spuriously; uint32 arithmetic of the count kept, tag of w bits |
| Model/LoopLife.v | base/message_loop/message_loop.cc:110-123,147-258 | sequential consistency; tasks inside Pump are anonymous steps; pipe writes succeed; spurious wake-ups are explicit steps |
| `DelayTask.v` | message_loop.cc PostDelayTask, timer_task_helper.cc, event_pump.cc FinalizeTimeWheel, timeout.c timeouts_next | constructing a TimeoutEvent appears as setting the interval of an unused timer; the closure run by the handler is the `fires` event; memory of the event object is its entry in the deleted list |
| `StrUtil.v` | base/utils/string/str_utils.{h,cc} (Split, SplitChar, Replace*, Contains, StartsWith/EndsWith, Trim*, IgnoreCaseEquals, ParseTo/Parse for unsigned types, ToInt/ToInt64) | strings are byte lists; "C" locale; std::out_of_range is `None`; operator>> and stoi follow the C++ standard; Join/Concat/ToString (stream output) not modelled |
| `UrlUtils.v` | net_io/url_utils.cc ParseURI, ParseRemote | name lookup (HostResolve/getaddrinfo) not modelled; the query map is an association list where insert keeps an existing key |
| IpAddress.v | net_io/common/ip_address.{h,cc}, ip_endpoint.{h,cc}, net_io/socket_utils.cc:177-271 | an address is its byte list; DCHECK behaviour by a build flag; inet_pton(AF_INET)/inet_ntop(AF_INET) modelled after glibc, the AF_INET6 variants are parameters; getpeername/getsockname reports the real length and truncates |
| TimeDelta.v | base/time/time_delta.{h,cc}, time_base.h, time.{h,cc}, time_utils.cc, time_ticks.cc; base/numerics clamped/checked add, sub, mul | a delta or time is its int64 field as a Z, overflow of a raw signed operation is UB; floating-point conversions and the current-time sources are not modelled; gmtime_r/timegm are parameters constrained by the Gregorian calendar contract in Spec/TimeSpec.v |
| PrTime.v | base/time/nspr/prtime.{h,cc}; base/time/time.cc FromStringInternal | a C string is its byte list, a pointer into it a suffix; reads behind the NUL are UB; mktime/localtime_r are parameters; ApplySecOffset is called with 0 only and omitted; the letter cases of the switch are a table in the order of the code |
| HttpConn.v | net_io/codec/http/http_codec_service.{h,cc}, codec_service.cc, server/http_server/http_context.cc, io_service.cc (OnCodecClosed, RemoveCodec), tcp_channel.cc (Send, HandleWrite), message_loop.cc (RunNestedTask) | buffers are byte lists; what llhttp delivers and its parse errors are environment steps; the reference count is the number of holders; IOService::Stop and the destruction of the server are not modelled |
| InvIndex.v | components/inverted_indexer/{indexer.h,indexer.cc,bitmap_merger.cc,expression.h}, posting_field/{bitmap_posting_list,posting_list_manager,general_str_field,range_field,field}.{h,cc} | crc64 is a parameter; a pointer to a posting list is its key in the manager's table; container iteration orders are parameters; printing is omitted but the GetIds calls it makes are kept; JSON (de)serialisation and DebugDump are not modelled; the registered fields are fixed up front; operator>> for int32 follows the C++ standard |
| Numerics.v | base/numerics/{safe_conversions,safe_conversions_impl,checked_math,checked_math_impl,clamped_math,clamped_math_impl,safe_math_shared_impl,safe_math_clang_gcc_impl}.h | integer types of 8 to 64 bits as (signedness, width), values in Z; GCC builtin path only (no ARM assembler, no portable path); floating point, And/Or/Xor and pointer arithmetic wrappers are not modelled |
| WsConn | net_io/codec/websocket/ws_codec_service.cc, net_io/server/ws_server/ws_server.h, net_io/clients/ws_client.cc (Send and callbacks), net_io/codec/codec_service.cc | llhttp (not in the repository) is environment: the messages each read completes and whether it returns an error; where stated, constrained to its documented behaviour. Write results are environment. |
| WsClientLife | net_io/clients/ws_client.cc (constructor to destructor), net_io/clients/client_connector.cc (Dial, Stop, HandleEvent) | One queue; what happens on the open connection is reduced to "calls the client back or not". |
| LogMetrics | components/log_metrics/metrics_{item,container,stash}.{h,cc} | bucket count by exact ceiling instead of double arithmetic; concurrent queues are bags with up to 10000 items dequeued at a time; enqueue never fails; one clock value per step; text formatting of the report not modelled; both directions of wrong-class access are UB |
| TlsChannel | net_io/tcp_channel_ssl.cc Send, HandleWrite, HandleRead, handle_openssl_err | OpenSSL abstract (assumptions at the head of the file); byte queues are lists; DoHandshake, logging not modelled |
| TlsCtx | base/crypto/lt_ssl.cc constructor, defaults, UseVerifyCA, NewSSLSession; h2_tls_context.cc selection | file system and OpenSSL loading are parameters; ciphers, options and UseCertification not modelled |
| H2Token | net_io/codec/http/h2/nghttp2_util.cc lookup_token | switch translated case by case |
| H2Conn | net_io/codec/http/h2/h2_codec_service.cc callbacks, SendResponse, PushPromise, SendRequest | nghttp2 abstract (assumptions at the head of the file); handler synchronous; session start-up, ping and logging not modelled |
| TimerQueue | base/message_loop/timer_task_queue.cc | heap as a list with free choice among equals; callbacks run between steps |
| IoWait | base/coroutine/io_event.cc | pump and coroutine switch abstract: a resumer makes the coroutine runnable |
| RefPtr | base/memory/scoped_ref_ptr.h, refcountedobject.h, defer.h, scoped_guard.h | counts unbounded; atomics sequentially consistent |
| TaskReply | message_loop.h PostTaskAndReply, message_loop.cc PostTask, RunScheduledTask, RunNestedTask; closure_task.h | check and push of PostTask one step; wake-ups not modelled (see MsgLoop) |
| SourceLoad | components/source_loader loader/file_loader.cc, parser/column_parser.cc, source.cc, source_impl/name_struct_source.h | JSON library abstract (a predicate); doubles kept as text; reload flag-file polling not modelled |
| Gzip.v | base/utils/gzip/gzip_utils.cc, its callers in net_io/codec/http | zlib is a record of encode/decode functions with the assumptions in Spec/GzipSpec.v (theorems quantify over it); memory exhaustion is not modelled |
| Rand.v | base/utils/rand_util.cc, rand_util_posix.cc | /dev/urandom is a script of read results; doubles as rationals; DCHECKs as in release builds |
| Itoa.v | base/utils/ns_convertor.cc | intptr_t of 64 bits |
| Acceptor.v | net_io/socket_acceptor.cc, socket_utils.cc:99-143, io_service.cc:49,66-71 | the kernel's listen queue is a list of waiting connections with their addresses; accept(2), socket, bind, listen succeed or fail by script; one event per poll |
| UdpService.v | net_io/udp_io/udp_service.{h,cc} | descriptor side on FdEvents.v; recvmmsg takes up to 100 waiting datagrams, errors by script; the log is the output |
| Serving.v | net_io/codec/codec_factory.cc, UseSSLChannel overrides, net_io/server/generic_server.h, io_service.cc:104-168, coronet/io_service.cc:64-91, clients/client.cc:166-202, server/raw_server/raw_server.cc | creators are empty, null or making codecs of a class; loops interleave at check / store / remove; StopServer's bookkeeping under its mutex |
| Mysql.v | integration/async_mysql/{mysql_async_con,query_session,mysql_client_impl}.{h,cc} | MySQL library calls answer by script (wait/done/error/row); not in the default build; one loop thread; callbacks act between rounds |
| Maglev1.v | net_io/common/load_balance/maglev.cc | hash is a parameter; endpoint numbers below 2^31 |
| StringView.v | base/string/string_view.hpp (nonstd::string_view, what the build uses: it is C++14) | sizes are nats; npos and exceptions are None; bytes 0..255; the std:: algorithms by their definitions |
| UrlParser.v | thirdparty/url-parser/url_parser.c (strict mode), net_io/codec/http/http_message.cc:115-178 | is_connect = 0 as called; asserts not modelled (unreachable); std::string growth as in libstdc++; HttpRequest is not copied |
| HttpCtx | net_io/server/http_server/http_context.{h,cc} | a call is two steps (flag read, Response()); accesses to did_reply_ sequentially consistent; responses are objects on a heap; what SendResponse does is modelled elsewhere |
| CoTasks | base/coroutine/co_runner.{h,cc}, message_loop.cc:134-159, 240-258, 282-316 | user code arbitrary; a moodycamel queue is a list with FIFO per producer; size_approx exact; coroutine cache size not modelled |
| RawCtx | net_io/server/raw_server/raw_server.{h,cc} | a call is two steps; accesses to did_reply_ sequentially consistent; messages shared and unchanged; SendResponse arbitrary |
| RedisInit | net_io/codec/redis/resp_codec_service.cc:35-128 | sends succeed; the delegate has a RemoteInfo; OnCodecReady sends nothing itself; descriptor not modelled; codec as in Model/Resp.v |

Not modelled at all: SSL (tcp_channel_ssl, base/crypto), UDP service, HTTP/2, co_so hooks, logging/glog, gflags,
C++ exceptions other than where a property names them, allocation failure, destructor order at process exit.

## Trusted base

* Coq 8.16.1's kernel, including `vm_compute` (used in examples and in a few closed computations). No native_compute.
* The reading of the C++ source recorded in the model comments, the C++17 memory/UB rules as encoded in `outcome`,
  and the assumptions in the table above.
* `Print Assumptions` is run in `Properties/*.v` after every property theorem; each prints
  "Closed under the global context": no axiom is used, neither of the standard library nor of ours.
  (The gate's scan of loaded libraries lists `Coq.ssr.ssrunder` definitions merely because a library file is loaded; no theorem depends on them.)
* No Admitted, no Axiom/Parameter, no functors or module types; every `Variable`/`Context` is inside a Section, so it
  appears as a quantifier in the theorem's closed statement.
