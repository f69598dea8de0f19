# Formal model of ydmxcz/gds in Rocq (Coq 8.16.1)

Everything is in `rocq/theories/` (logical name `Verif`), one group of flat
files per Go package:

* `X_Model.v` – executable Gallina model or transition system of the code;
  every definition cites the Go file and lines and says where it simplifies;
* `X_Spec.v` – the small vocabulary the theorems are stated in (where the
  statement needs more than lists and numbers), independent of the proofs;
* `X_Proofs*.v` – lemmas;
* `X_Props.v` – only the property theorems (`Cnn_...`), each followed by
  `Print Assumptions`, and at the end `Example`s showing that concrete,
  non-trivial cases meet the hypotheses.

`Base.v` holds the outcome type (`Ok | Panic | Fuel`), the comparator contracts
(`cmp_ok`: sign-antisymmetric and transitive; `cmp_unit`: values -1, 0, 1;
`cmp_eq`: 0 only on equal keys) and list lemmas.  `Lin_Spec.v` defines
linearizability (histories of invocations and responses, pending calls,
existence of an order of the calls that the sequential specification accepts);
`Lin_Proofs.v` and `Lin_Hindsight.v` are the generic proof rules.

`properties.jsonl` lists the properties, `MANIFEST.json` the theorems proved for
each, `seeded/LOG.jsonl` the experiments with wrong programs.

## Names

`..._refuted`: a theorem that exhibits a concrete history or schedule on which
a claim one would expect is false of the code.  `..._partial`: a theorem that
proves only part of its property (none at present).  All other theorems are
universally quantified.  A property is always the strongest *true* contract:
where the code has a defect the property says what the code does instead, and
the defect is exhibited.

## Trusted base

* The kernel of Coq 8.16.1 (`coqc`, with `vm_compute` used in some examples and
  in refutations).
* `Print Assumptions` of every theorem in every `X_Props.v` prints
  *Closed under the global context*: no axiom is used by any theorem.
* Loaded libraries declare axioms that no theorem uses.  The std++ prelude
  loads ssreflect's `Coq.ssr.ssrunder`, whose module `Under_rel` is declared
  with a module type and so appears as seven axioms in a listing of the whole
  environment: `Under_rel`, `Under_rel_from_rel`, `Under_relE`, `Over_rel`,
  `over_rel`, `over_rel_done`, `under_rel_done` (all
  `Coq.ssr.ssrunder.Under_rel.*`, part of Coq's own distribution).
* No axioms, parameters, functors, module types, disabled checks, or plugins
  of our own.
* The correspondence between Go code and model: read by hand, definition by
  definition, from the cited lines.  The Go compiler, runtime, memory model and
  standard library (sync, atomic, time, context, channels, append's growth,
  math/rand) are represented by the models described below and otherwise trusted.

## Modelling conventions

* Go `int` is `Z`/`nat` (unbounded) unless the property is about wrap-around
  (hashing is computed mod 2^64).
* A Go panic (nil dereference, index out of range, explicit panic) is the
  outcome `Panic`; loops are recursion on fuel, exhaustion is the separate
  outcome `Fuel`.  Theorems either show that a sufficient amount of fuel exists
  and is used (so the loop terminates), or, for non-termination findings, that
  `Fuel` is the outcome for *every* amount of fuel.
* Pointers are locations in an explicit heap; nil is `None`.  Addresses are not
  reused unless the code itself recycles nodes (red-black node buffer).
* Goroutines are threads of a small-step transition system whose steps are
  the individual atomic operations, lock operations and channel operations
  (plus the private computation up to the next one); any enabled step may be
  next; theorems quantify over all reachable states.  Atomics are sequentially
  consistent, as Go's memory model specifies.
* User callbacks and comparators are universally quantified functions.  In
  the sequential stream and fn models they may read and change a user state
  (so the order and number of their calls is visible); elsewhere they are pure.
  A comparator's contract is an explicit hypothesis.
* Randomness (tower heights), the clock and slice growth are oracles:
  universally quantified inputs.

## What is modelled, and how it is proved

| id | code | modelled | proof |
|----|------|----------|-------|
| C01-C03 | collections/priorityqueue | slice + size, percolateUp/Down as index loops (`PQ_*`) | heap order with one hole; refinement to a bag, induction on histories |
| C04, C06 | collections/queue | node heap, head/tail/count (`Queue_*`) | chain predicate, refinement to list |
| C05 | collections/queue | threads, one step per statement of the critical sections | invariant; linearization points; `Lin_Proofs` |
| C07-C11 | collections/linkedlist | heap of elements with next/prev/list, any number of lists (`LinkedList_*`) | ring predicate, refinement to sequences of handles |
| C12 | collections/slice SplitableIter | generator state machine (`Split_*`) | arithmetic + induction on the generator |
| C13 | SplitableIter of linkedlist, rbtree, skiplist | pointer generators (`WalkSplit_*`) | simulation with the slice generator |
| C14-C20 | collections/slice | memory of arrays + slice headers (`Slice_*`) | window/frame lemmas on list update |
| C21-C24 | stream, sequential branches | pull machines (coinductive), shared counters, fuelled loops (`Stream_*`) | compositional "yields these elements with these effects" relation |
| C25-C27 | stream FoldWith/Collect, parallel | goroutines + buffered channel + wait group + shared counters (`StreamPar_*`) | invariants, decreasing measures, explicit schedules |
| C64 | stream TryFold/AllMatch/AnyMatch/First, parallel | as C25 with a cancellable context (`StreamTry_*`) | invariant, measure, explicit schedules |
| C65 | stream Sum/Reduce/Max/Min/FoldWith through Map and Filter, any parallelism | outcomes of the C25 system (`StreamRed_*`) | corollaries of C25 plus permutation algebra |
| C66 | stream FoldWith/Collect, parallel, over any stream and container | goroutines calling the iterators of `Stream_Model`, pointer-walking sources (`ParPipe_*`, `Par*Pipe_Props`) | invariant + measure over fixed segments; stage lemmas of C23; simulation of C13 |
| C67 | iterators and nodes of linkedlist, rbtree, skiplist across changes | the same heaps; an iterator is the node it holds (`LinkedHandles_Props`, `RBHandles_Props`, `SkipHandles_Props`) | the invariants of C07, C36, C40 read node by node |
| C68 | `String` of rbtree and skiplist | `Show_Model.v`: the loop over First/header.left and Next with a string accumulator, for arbitrary renderings | C40 and C38 |
| C69 | `SetCompareFunc`, `GetCompareFunc`, `Clear`, `Init` | `Show_Model.v`: the comparator field as an option | induction on the calls |
| C70 | `TryFold` (parallel branch), `First`, `AllMatch`, `AnyMatch` on any stream | `TryPipe_Model.v`: labelled steps of caller and goroutines that call the iterators of `Stream_Model`; cancellation and channel as in C64 | invariant over reachable states, decreasing measure; pipelines through C66 |
| C71 | queue, delayqueue, lockfreeskiplist | `Race_Spec.v`: access, conflict, race; `QueueRace_*`, `DQRace_*`, `LFRace_*`: the memory each step of the models of C04-C06, C31-C34, C50-C53 accesses | mutual exclusion and allocation invariants of those models; explicit schedules for the races |
| C72 | priorityqueue, redblacktree, bplustree, skiplist | `Cost_Model.v`: the model functions again, recording comparator calls; proved to erase to the model and to depend on the comparator through the recorded calls only; skip list: the functions of C74 (`SLCost_*`) | induction over heap positions, red-black height (C36), occupancy of B+ nodes (C45); skip list: comparisons paid for by distance walked and by levels |
| C73 | stream Map, Filter, Inspect, FoldWith, Collect, TryFold with panicking callbacks | `PanicPar_Model.v`, `PanicTry_Model.v`: callbacks answer `None` to panic; sequential loops returning the calls made; goroutines of doParallel with a crash flag that stops everything | each segment is a list plus a panic flag (`course`); invariant over the goroutines; decreasing measure for termination |
| C74 | priorityqueue, redblacktree, skiplist with a comparator that panics | `PanicComp_Model.v`, `PanicCompSL_Model.v`, `PanicCompRB_Model.v`: the model functions again in a monad that counts the answers the comparator (and the value comparator of DeleteByWholeMapping) has left and records the container's state at every comparison; proved equal to the model when there are answers enough | inductive invariants that hold at every comparison (bag of elements, span structure, tree unchanged); histories by induction |
| C75 | bplustree with a comparator that panics | `PanicCompBP_Model.v`: as C74; the state recorded is the whole tree, whose root field is still the old root while insert and delete run | every call abandoned at any comparison leaves a tree that still reads as a balanced one, or one level down under a root without keys; the entries change by one doubling, one overwriting and, under a full root, the loss of the upper part; histories by induction; refutations computed |
| C76 | redblackbtree_node.go: Next, Prev, MinChildNode, MaxChildNode | the functions of `RBTree_Model.v`; `RBWalk_Spec.v`: the nodes below a node, a line of nodes along which a step leads | the line is the in-order list of the tree of C36; successor and predecessor by zipper |
| C77 | delayqueue with callbacks that panic in Push | `DQPanic_Model.v`: the steps of C31-C34 and two more, a panic of Expiration and of the comparator, after which the goroutine is outside the queue | a panic of the comparator is a step of the queue with another comparator, so the invariants of C31-C33 hold; after a panic of Expiration nobody is in the critical section and the mutex is locked: invariant |
| C78 | lockfreeskiplist with a comparator that panics | `LFPanic_Model.v`: the steps of C50-C53 and one more, a panic at a comparison, after which the goroutine is outside its call | renaming goroutines after their panics turns a run into one of C50-C53 with calls that never return; the invariants of C50-C53 carry over; the counter by counting the abandoned calls that took effect; without overlap, by the invariants of C53 |
| C79 | stream FoldWith, Collect, TryFold in parallel with callbacks that take time | `Busy_Model.v`: entering and leaving a callback, a combiner or a pull are separate events, any answer possible; goroutines, buffered channel, context and wait group | invariant relating each goroutine to its part of the history; counting results sent; decreasing measure; schedules computed by an executable scheduler proved sound (`Busy_Proofs4.v`); AllMatch and AnyMatch as TryFold histories in which f answers as their closures do (`BusyMatch_*.v`) |
| C80 | queue, linkedlist, priorityqueue, skiplist, rbtree, slice, bplustree, lockfreeskiplist (`LFKeep_*`: a solo Del keeps the bottom level from its value on, by an invariant of its steps over the model of C50): what stays reachable | the heap models of C01, C04, C07, C36, C40 with their pointer fields as edges; `Keep_Spec.v`: reachability, and the stack of slots a priority queue leaves behind | the kept set is the represented sequence (both inclusions by induction along the links); the slots behind the heap by induction over the history, for any comparator; refutations are exact descriptions of what is kept too long |
| C81 | rbtree, skiplist, priorityqueue, bplustree, lockfreeskiplist, delayqueue made with a nil comparator; SetCompareFunc | the functions of `PanicComp*_Model.v` with 0 answers; `Nil_Model.v`: histories with SetCompareFunc; `Nil_Spec.v`: one small function per container that says what each call answers and leaves | simulation of those functions by induction over the history (the containers hold at most one entry, the queue a list in slice order); after SetCompareFunc the theorems of C35 and C40 from that state; for the concurrent containers a step relation that cannot pass a comparison (`NilLF_Model.v`, `NilDQ_Model.v`) and an inductive invariant |
| C82 | parallel FoldWith, Collect, TryFold with callbacks that take time and panic | `BusyPanic_Model.v`: the steps of `Busy_Model.v` while the process runs, plus a panic of a goroutine in a callback (the process is gone) and of the caller's callback (the caller stops, the goroutines go on) | every execution, panics left out, is one of C79's, so C79's invariants hold at the panic; decreasing measure for termination |
| C28 | iterator CastToPull | producer / channel / consumers / cancel (`Iter_*`) | invariant |
| C29, C30 | iterator adapters, Lines, FromChan | loops over pull functions and a byte file; a FIFO channel with senders, closer and callers (`Chan_*`) | induction; invariant |
| C31-C34 | collections/delayqueue | mutex sections, sleeping flag, unbuffered channel, timer, context; the priority queue model inside (`DelayQueue_*`) | invariants; explicit schedules for the refutations |
| C35-C39, C61 | collections/rbtree | node heap with parent pointers, header, node buffer (`RBTree_*`; `RBTreeKV_*`: which calls can write which node's key and value, so nodes the caller owns keep theirs through any history) | represented tree with zipper, red-black invariants, refinement to association lists |
| C40-C44 | collections/skiplist | node heap with level arrays and spans (`SkipList_*`) | level chains as sublists, span = distance |
| C45-C49 | collections/bplustree | nodes with fixed-capacity arrays incl. stale slots (`BPlus_*`) | in-order reading by induction on height; after insertions every separator repeats the entry before it and leaves keep degree-1 entries (exact lookup, C46) |
| C83 | collections/bplustree Inorder | recursion and loop over nodes, printed lines as a list (`BPlusPrint_*`) | induction on the height over the reading of C45; counterexamples by computation |
| C50-C53, C62, C63 | collections/lockfreeskiplist | one step per atomic operation, marked pointers (`LockFree_*`) | inductive invariant, ghost abstract set, hindsight for lookups; a stronger invariant (complete levels, exact spans) while calls do not overlap (C51, C53); explicit schedules for its failure after overlapping additions, and an invariant of later calls without overlap (`LFGap_*`); per-thread measure (C62); global potential function (C63) |
| C54-C57 | util/hasher | words mod 2^64, byte strings (`Hash_*`) | equality with an independent XXH64; invertibility of each mixing step |
| C58-C60 | fn, sortedset | direct (`Fn_*`) | computation |
| C59 | all comparator clients | – | sign-invariance or counterexample per container |

## What is not modelled

* Printing and debugging helpers: `display` (its queue has Size+1 places),
  `YieldPrintln`; trivial getters and setters of nodes (`GetKey`, `GetValue`,
  `IsValid`, `GetLeft`, ... ); everything commented out in
  bplustree_set.go and bplustree_iterator.go.
* `util/ptr` (thin wrappers of sync/atomic).  `iterator.FromChan` is modelled
  as receives on a Go channel (`Chan_*`), without nil channels and without the
  caller's own panics (send on or close of a closed channel).
* Integer overflow in sizes, counters and indices; running out of memory;
  goroutine stack limits.
* Data races have no effect here beyond the modelled steps: a racy load (`Len`,
  `Empty` of the queue, `Len` of the delay queue) returns the counter's value of
  that moment.  C71 says exactly where the races are; all other accesses are
  race free, so sequential consistency is what Go's memory model gives them.
* Parallel streams: callbacks that take time are C79 (given segments), callbacks that
  panic C73, both together C82 (given segments); the generator's own calls take no time (C25 treats
  slices, C26 and C27 finitely many finite segments, C66 and C70 any stream with
  fixed segments, one call of an iterator being one step).  A negative
  parallelism is modelled for FoldWith (C65) and TryFold (C70): make of a channel
  panics.
* Floating point is only represented by bit patterns (hashing).

## Findings in the code (all exhibited by theorems)

* bplustree: Inorder prints separators among the entries, so entries twice and deleted keys still (C83).
* lockfreeskiplist: Add writes the links of its new node once and does not write them again when it has to look
  for its place again, so two additions that overlap can drop an element from the upper levels for good; Rank
  is then wrong also when nothing runs any more (C51, C53).
* stream: with more segments than the parallelism FoldWith returns while callbacks still run, and a goroutine
  that ends later can end the process; all goroutines start from the one initial value, so a pointer or map as
  `init` is shared between concurrent callbacks; after TryFold has answered false each goroutine may begin one
  more callback (C79).  With more segments than the parallelism AllMatch can answer true although an element
  does not match (C79).
* stream: in parallel `AllMatch` and `AnyMatch` look at `First` of the first segment only, so after a
  `Filter` that empties it both answer false (C70).  `String` of an empty red-black tree never returns (C68).
* priorityqueue: `New(comp)` without a size and `OfWith` always panic (C03).
* fn: `BinPredicate.Or` computes the conjunction (C58).  sortedset: `New`
  returns nil, so every call panics (C60).
* iterator: `Lines` drops an unterminated last line (C30); a producer
  abandoned without stop stays blocked (C28).
* linkedlist: Clear leaves elements owned by the list, so a later Remove makes
  Len negative; the zero value panics (C09); removing the element an iterator
  yielded last makes its next pull panic (C67).
* linkedlist: after Clear all elements stay reachable until the next insertion (Clear
  resets root.next only); priorityqueue: popped elements stay in the slice;
  rbtree: deleted keys and values stay in the pool; slice.Delete and the B+ tree
  leave deleted entries in the cells behind (C80).
* The lock-free skip list's Del does not unlink the node it marks: it waits for
  a later search that passes it, and even a search for that very value may
  miss it (C80).
* B+ tree: 2*degree insertions and one Delete suffice to lose one key and
  store another one twice (C47).
* A container made with a nil comparator takes one entry before calls panic; a priority
  queue's panicking Push adds its element, and with three it cannot be emptied; a delay
  queue's Push adds its element, panics and wakes nobody (C81).
* slice: `Insert` with arguments aliasing the slice inserts the wrong values
  (C14); value-receiver PushBack/Insert do not grow the receiver (C20).
* SplitableIter with parallelism above the length yields empty segments for
  ever (C12, C13), so parallel folds never return (C25, C64).
* streams: AllMatch of an empty stream is false; FlatMap ends at an empty inner
  stream (C23); Reduce of a single element returns the zero value (C24); with
  p not dividing n parallel FoldWith loses a segment and then panics (C25),
  TryFold, AllMatch, AnyMatch answer wrongly or leak a goroutine (C64); Take in
  parallel exceeds its limit (C26); Max, Min, Reduce of a slice shorter than the
  parallelism answer zero, parallel Reduce counts the first element p+1 times too
  often (C65); parallel Zip pairs up wrongly when the lengths differ, and a Chain
  made parallel is a single segment, so folding it never returns (C66).
* queue: `Len` and `Empty` race with the plain counter updates of Push and Pop;
  delayqueue: `Len` reads the heap's size without the lock (C71); a panicking `Expiration`
  leaves the queue locked for ever (C77).
* delayqueue: lost wake-up, two consumers blocked, PopWithCtx loses an element,
  cancellation blocks a Push (C32, C33).
* rbtree: `put`'s inner `comp` shadows the outer one, so new nodes are always
  linked on the right: Put of a key that belongs on the left loses data (C37);
  Delete can panic (C36); Iter of an empty tree hangs (C38); PutNode does not
  count (C61); Delete moves entries between nodes, so deleting during an
  iteration repeats entries or yields deleted ones (C67); comparators must return exactly -1, 0, 1 (C59).
* skiplist: Delete removes nothing, InsertUnique inserts duplicates, increasing
  keys end up unsorted, Has(zero) can be true on absence, LastInRange is off
  (C41-C43).
* bplustree: degree < 2 unusable (C45); lookups miss keys that are the middle separator of
  a node (C46 says exactly which); Delete can remove another key, remove nothing, or panic (C47); Clear
  makes the tree unusable (C48); DeleteByWholeMapping deletes only entries with
  a smaller value (C49); a comparator that panics during an insertion can cost entries, up
  to the upper part of a full root, and during a deletion make a later Delete panic (C75).
* lockfreeskiplist: Rank is not the rank (C53); Len can be transiently negative (C52);
  an Add whose comparator panics while it links its upper levels has added its element but is never
  counted by Len (C78).
* hasher: named types have no hash function (Hash panics, C56); +0.0 and -0.0
  hash differently (C57).

## Experiments with wrong programs

`seeded/LOG.jsonl` has one line per edited model.  The edits are made in a
scratch copy; every file depending on the edited one is rebuilt, each lemma
whose proof no longer checks is replaced by `Admitted` and the theorems that
(directly or through such lemmas) stop being proved are recorded under
`theorems_failed`.  A failing proof script is not by itself a proof that the
theorem is false, so each edit was also judged by hand against the English
claim; edits that do not change observable behaviour are marked `equivalent`.
Survivors that did break a claim led to new or stronger theorems
(`theorems_tightened`).
