{"id": "C01", "title": "Priority queue behaves like a bag with extract-min", "statement": "For a queue made by New(comp, size) with a comparator that is a total preorder, every sequence of Push, Pop, Peek and Len runs without panicking and is indistinguishable from a bag: Len is the number of stored elements, Push adds exactly one element, Pop on a non-empty queue returns an element no stored element is smaller than and removes exactly that one occurrence, Peek returns the element the next Pop would return and changes nothing, and Pop/Peek on an empty queue return (zero,false).", "quantifier": "all element types, total-preorder comparators, initial size hints and finite operation histories", "why_tests_cant": "the heap shape depends on the whole push/pop history and on ties between equal keys; a test sees a few histories only", "anchors": ["collections/priorityqueue/priorityqueue.go: Push, Pop, Peek, Len, percolateUp, percolateDown, Init"]}
{"id": "C02", "title": "Priority queue drains in sorted order", "statement": "Pushing any list of values into a fresh queue and then popping as many times returns a permutation of that list in non-decreasing comparator order, and then Pop reports empty.", "quantifier": "all lists of values and total-preorder comparators", "why_tests_cant": "sortedness for every input length and permutation, including ties, is a universal statement", "anchors": ["collections/priorityqueue/priorityqueue.go: Push, Pop"]}
{"id": "C03", "title": "Priority queue constructor size argument", "statement": "New and Init panic exactly when called without a size argument, and OfWith (which calls New without a size) therefore panics for every argument list; when a size is given it is ignored and the queue starts with capacity for 8 elements, which is not observable through Push/Pop/Peek/Len.", "quantifier": "all comparators and all (possibly empty) size argument lists and element lists", "why_tests_cant": "the claim is about every argument list, and the observational irrelevance of the size hint is a statement about all later histories", "anchors": ["collections/priorityqueue/priorityqueue.go: New, Init, OfWith"]}
{"id": "C04", "title": "Linked queue is FIFO for one goroutine", "statement": "Every history of Push, Pop, Peek, Len and Empty on a queue made by New behaves as a FIFO list: Pop returns the oldest value not yet popped, Peek returns it without removing it, Len and Empty report the exact number of stored values; Pop and Peek on an empty queue panic, leave the contents unchanged and leave the lock free.", "quantifier": "all value types and operation histories", "why_tests_cant": "the head/tail/next pointer state depends on the entire history", "anchors": ["collections/queue/queue.go: Linked.Push, Pop, Peek, PushNode, PopNode, PeekNode, Len, Empty"]}
{"id": "C05", "title": "Linked queue is linearizable", "statement": "When any number of goroutines run Push, Pop, Peek, Len and Empty concurrently, every interleaving of their atomic steps is equivalent to a sequential FIFO history in which each call takes effect between its invocation and its return and returns the same result.", "quantifier": "all numbers of goroutines, programs and schedules at the granularity of the individual reads and writes inside the critical section", "why_tests_cant": "schedules are unbounded and not controllable from a Go test", "anchors": ["collections/queue/queue.go: PushNode, PopNode, PeekNode, Len, Empty, lock, count"]}
{"id": "C06", "title": "Linked queue nodes may be pushed only while detached", "statement": "PushNode behaves as Push of the node's value when the node has never been in a queue (its next link is nil). Re-pushing a node obtained from PopNode while other elements remain corrupts the queue: the links become cyclic, Pop never runs empty and Len goes negative; re-pushing it when it was the only element is safe.", "quantifier": "all queues and all nodes popped from them, all numbers of subsequent Pops", "why_tests_cant": "the corruption only shows after arbitrarily many later Pops, for each queue length", "anchors": ["collections/queue/queue.go: PushNode, PopNode"]}
{"id": "C07", "title": "Linked list operations refine a sequence", "statement": "Every history of PushFront, PushBack, InsertBefore, InsertAfter, Remove, MoveToFront, MoveToBack, MoveBefore, MoveAfter, Len, Front, Back, Next, Prev and ToSlice over any number of lists behaves as the corresponding operations on mathematical sequences of element handles: each element is in at most one list, keeps its value, and Len, Front, Back, Next, Prev and ToSlice report exactly the sequence.", "quantifier": "all histories over any number of lists and elements, including zero-value lists, in which no handle orphaned by Clear or Init is passed back to its list", "why_tests_cant": "ring pointer integrity under every interleaving of inserts, removes and moves is an invariant over unbounded histories", "anchors": ["collections/linkedlist/linkedlist.go: all List methods, Element.Next, Element.Prev"]}
{"id": "C08", "title": "Linked list ignores foreign and removed elements", "statement": "Remove, InsertBefore, InsertAfter and the four Move operations leave every list unchanged when given an element (or mark) that belongs to another list or has already been removed; the inserts then return nil and Remove still returns the element's value; MoveBefore/MoveAfter of an element relative to itself change nothing.", "quantifier": "all lists, elements and marks in every reachable state", "why_tests_cant": "covers all element/list combinations in all reachable states", "anchors": ["collections/linkedlist/linkedlist.go: Remove, InsertBefore, InsertAfter, MoveToFront, MoveToBack, MoveBefore, MoveAfter"]}
{"id": "C09", "title": "Linked list Clear and zero value", "statement": "After Clear a list reports Len 0, nil Front and nil Back and is again usable: the next PushFront or PushBack makes it the one-element list. But until that push, Iter's first pull and ToSlice panic (also on a never-used zero-value list), and passing a handle orphaned by Clear to Remove makes Len negative.", "quantifier": "all lists in all reachable states", "why_tests_cant": "holds for every prior content; the failure needs a specific call order after an arbitrary prefix", "anchors": ["collections/linkedlist/linkedlist.go: Clear, Iter, ToSlice, lazyInit, Remove"]}
{"id": "C10", "title": "Linked list Iter visits every element in order, then restarts", "statement": "Pulling an Iter of an initialised list of n elements yields the n values front to back, then reports exhaustion once, and then starts over from the front: the k-th pull returns the (k mod (n+1))-th value, and exhaustion exactly when k mod (n+1) = n.", "quantifier": "all lists and all numbers of pulls", "why_tests_cant": "the period depends on the length; tests stop at the first exhaustion", "anchors": ["collections/linkedlist/linkedlist.go: Iter, ToSlice; iterator/iterator.go: Iter.All"]}
{"id": "C11", "title": "PushBackList and PushFrontList copy, even onto themselves", "statement": "l.PushBackList(o) appends a copy of o's values after l's and l.PushFrontList(o) prepends them in order, leaving o unchanged when o is another list; when o is l itself the result is l's values twice; new elements are fresh handles.", "quantifier": "all pairs of lists, including identical ones, in every reachable state", "why_tests_cant": "self-append termination and result must hold for every length", "anchors": ["collections/linkedlist/linkedlist.go: PushBackList, PushFrontList"]}
{"id": "C12", "title": "Splitting a slice partitions it", "statement": "For a slice of length n, SplitableIter()(p) yields segments whose concatenation is the slice, in order. For p <= 0 there is exactly one segment. For 1 <= p <= n there are exactly ceil(n / floor(n/p)) segments, every segment but the last has floor(n/p) elements, and the number of segments equals p if and only if p divides n (otherwise it is larger). For 0 < n < p the generator never ends: every call yields an empty segment. For n = 0 and p > 0 there are no segments.", "quantifier": "all slices and all integer parallelism arguments", "why_tests_cant": "an arithmetic fact about every n and p, including the non-termination case", "anchors": ["collections/slice/slice.go: SplitableIter, Iter"]}
{"id": "C13", "title": "Splitting a linked list, skip list or red-black tree agrees with splitting the slice of its elements", "statement": "SplitableIter()(p) of a linked list, skip list or red-black tree, used without concurrent modification, yields the same segments as SplitableIter()(p) of the slice of its elements in iteration order, although it walks node pointers.", "quantifier": "all reachable containers and all parallelism arguments", "why_tests_cant": "agreement between pointer walk and index arithmetic for every size", "anchors": ["collections/linkedlist/linkedlist.go: SplitableIter, iter, iterStep", "collections/skiplist/skiplist.go: SplitableIter, iter, iterStep", "collections/rbtree/redblacktree.go: SplitableIter, iter, iterStep"]}
{"id": "C14", "title": "Slice Insert, Delete and Replace compute the spliced slice", "statement": "Insert(s,i,v...) returns s[:i]++v++s[i:] and panics exactly when i is outside [0,len(s)]; Delete(s,i,j) returns s[:i]++s[j:] and Replace(s,i,j,v...) returns s[:i]++v++s[j:], both panicking exactly when 0<=i<=j<=len(s) fails; this holds whether or not the spare capacity suffices, provided v does not share memory with the backing array of s. With spare capacity and v aliasing s, Insert can return wrong contents.", "quantifier": "all slices with any offset, length and capacity in any memory state, all integer indices, all argument lists", "why_tests_cant": "capacity-dependent in-place paths and index boundaries for all lengths", "anchors": ["collections/slice/slice.go: Insert, Delete, Replace"]}
{"id": "C15", "title": "Slice operations touch only the memory they own", "statement": "Clone and the reallocating paths of Insert, Replace, Grow and append return a slice whose backing array is fresh, leaving every existing array unchanged, so later writes through the result are never visible through older slices; the in-place paths of Insert, Delete, Replace and Compact change no array other than the backing array of s and no cell outside the window [offset, offset+cap) of s.", "quantifier": "all memory states and slices, including overlapping ones", "why_tests_cant": "aliasing is a statement about every other slice in memory", "anchors": ["collections/slice/slice.go: Clone, Insert, Delete, Replace, Compact, CompactFunc, Grow"]}
{"id": "C16", "title": "Compact removes exactly the consecutive repeats", "statement": "Compact(s) returns s with every element equal to its predecessor removed, keeping the first of each run in order; CompactFunc(s,eq) keeps an element exactly when eq(element, last kept element) is false; both work in place and leave the cells from the new length on exactly as they were.", "quantifier": "all slices and equality functions", "why_tests_cant": "run structure is arbitrary", "anchors": ["collections/slice/slice.go: Compact, CompactFunc"]}
{"id": "C17", "title": "Slice comparison is lexicographic", "statement": "Compare returns the sign of the lexicographic order, hence is reflexive, antisymmetric and transitive on totally ordered element types, with Compare = 0 iff Equal; CompareFunc returns the first non-zero element comparison, else the sign of the length difference; Equal/EqualFunc hold exactly for equal-length pointwise-equal slices.", "quantifier": "all slices over totally ordered element types and all comparison functions", "why_tests_cant": "order laws quantify over triples of slices of every length", "anchors": ["collections/slice/slice.go: Compare, CompareFunc, Equal, EqualFunc"]}
{"id": "C18", "title": "Index and Contains find the first match", "statement": "Index (both forms) returns the least index whose element matches, or -1 exactly when none matches; Contains is true exactly when some element matches.", "quantifier": "all slices and predicates", "why_tests_cant": "minimality over all positions", "anchors": ["collections/slice/slice.go: Index, Contains"]}
{"id": "C19", "title": "Grow guarantees room and Clip removes it", "statement": "Grow(s,n) panics exactly for n < 0, keeps length and contents, guarantees capacity >= len(s)+n, and does not move the slice when the room already exists; Clip keeps length and contents and makes capacity equal to length, so a later append never overwrites a neighbour.", "quantifier": "all slices and integers, every capacity growth policy", "why_tests_cant": "depends on the allocator's growth policy", "anchors": ["collections/slice/slice.go: Grow, Clip"]}
{"id": "C20", "title": "Value-receiver PushBack and Insert do not grow the receiver", "statement": "s.PushBack(v...) and s.Insert(i,v...) never change the length of s as seen by the caller. PushBack never changes an element of s; the Insert method with spare capacity overwrites s[i:] in place, so the last len(v) elements of s disappear, while without spare capacity it has no effect at all.", "quantifier": "all slices, capacities, indices and arguments", "why_tests_cant": "whether an effect is visible depends on capacity and aliasing for every slice", "anchors": ["collections/slice/slice.go: PushBack, Slice.Insert"]}
{"id": "C21", "title": "Sequential pipelines compute the list function", "statement": "With parallelism 0, collecting a pipeline of Map, Filter and Inspect over any source yields, in order, exactly the mapped / filtered / unchanged elements of what the source yields, each callback being applied once per upstream element; this composes for pipelines of any depth and any number of segments.", "quantifier": "all sources, callbacks, pipeline depths and segment lists", "why_tests_cant": "compositional statement over all pipelines", "anchors": ["stream/map.go: Map", "stream/filter.go: Filter", "stream/inspect.go: Inspect", "stream/collect.go: Collect"]}
{"id": "C22", "title": "Skip, SkipWhile, Take and Enumerate element selection", "statement": "On the first activation, in sequential use: Take(n) yields the first max(n,0) elements; Skip(n) drops the first max(n-1,0) elements (one fewer than its argument); SkipWhile(p) drops every element satisfying p, not only a prefix; Enumerate numbers elements 1,2,3,... across all segments. The counters belong to the stream value, so on any later activation Take yields only what is left of its budget, Skip drops nothing more once its budget is spent and Enumerate continues numbering.", "quantifier": "all upstream sequences, arguments and numbers of previous activations", "why_tests_cant": "off-by-one and carry-over across activations hold for all lengths", "anchors": ["stream/skip.go: Skip, SkipWhile", "stream/take.go: Take", "stream/enumerate.go: Enumerate"]}
{"id": "C23", "title": "Zip, Chain and FlatMap sequencing", "statement": "Sequentially, Zip yields pairs in lock step up to the shorter source segment; Chain yields, round by round, the next segment of each source in order, so for single-segment sources it is concatenation; FlatMap yields the concatenation of the first segments of the sub-streams up to, and stopping for good at, the first sub-stream that has no segment at all.", "quantifier": "all sources with any segment structure and all flat-map callbacks", "why_tests_cant": "depends on all segment structures", "anchors": ["stream/zip.go: Zip", "stream/chain.go: Chain", "stream/flat_map.go: FlatMap"]}
{"id": "C24", "title": "Terminal operations, sequential", "statement": "Over a stream of a single segment with elements l: Fold is the left fold; Sum is the sum; First returns the head; Reduce folds the reducer over all of l starting from its first element, so the first element is used twice; Max and Min return the extremum of a non-empty stream and 0 for an empty one; AllMatch is true iff l is non-empty and all match; AnyMatch is true iff some element matches; TryFold stops at the first rejected element.", "quantifier": "all element lists and callbacks, repeatable sources", "why_tests_cant": "universal over lists and operators, including non-idempotent ones", "anchors": ["stream/fold.go: Fold, FoldWith", "stream/reduce.go: Reduce, ReduceWith", "stream/max_min.go: Max, Min, MaxBy, MinBy", "stream/all_any_match.go: AllMatch, AnyMatch", "stream/tryfold.go: TryFold", "stream/first.go: First", "stream/sum.go: Sum"]}
{"id": "C25", "title": "Parallel fold is correct exactly when parallelism divides the length", "statement": "FoldWith on a slice stream of length n with parallelism p >= 1: if p divides n and n > 0, every schedule that runs to completion returns the combination, in some order, of init with the p segment folds (so with an associative, commutative combiner for which init is an identity it is the sequential fold) and no schedule deadlocks or panics; if n > p and p does not divide n, every returned value omits at least one segment and some schedule sends on a closed channel and panics; if n = 0 no schedule returns (deadlock); if 0 < n < p no schedule returns (it spawns goroutines for ever).", "quantifier": "all slices, parallelism values, callbacks and goroutine schedules", "why_tests_cant": "schedules and the arithmetic condition are universal; deadlock freedom cannot be tested", "anchors": ["stream/fold.go: FoldWith", "stream/stream.go: doParallel", "collections/slice/slice.go: SplitableIter"]}
{"id": "C26", "title": "Shared counters under parallel collection", "statement": "When k goroutines drain the segments of one stream: Enumerate gives the N elements the keys 1..N, each exactly once, in every schedule; Skip(n) drops exactly min(N, max(n-1,0)) elements in every schedule; Take(n) delivers at least min(n,N) and at most min(N, n+k-1) elements (n >= 1), each goroutine delivering a prefix of its segment; the lower bound is reached by some schedule for every segment list and the upper one whenever no segment is empty, so Take can exceed its limit.", "quantifier": "all segment lists, counts and schedules of atomic loads, adds and pulls", "why_tests_cant": "races between the counter check and the increment", "anchors": ["stream/take.go: Take", "stream/skip.go: Skip", "stream/enumerate.go: Enumerate", "stream/collect.go: Collect"]}
{"id": "C27", "title": "Parallel Collect delivers every element exactly once", "statement": "For every schedule, when parallel Collect over finitely many finite segments returns, the consumer has been called exactly once for each element of each segment, elements of one segment in order.", "quantifier": "all finite segment lists and schedules", "why_tests_cant": "exactly-once over all schedules", "anchors": ["stream/collect.go: Collect", "stream/stream.go: doParallel"]}
{"id": "C28", "title": "CastToPull preserves the pushed sequence", "statement": "With CastToPull, in every schedule the values returned by next are a subsequence of the sequence of values pushed, never reordered or duplicated; as long as stop has not been called they are a prefix of it, and next reports exhaustion only after all values were delivered; after stop values may be dropped, and once the producer's push function has returned and the buffered values are consumed next reports exhaustion.", "quantifier": "all push sequences, schedules and stop times", "why_tests_cant": "goroutine/channel/cancel interleavings", "anchors": ["iterator/iterator.go: CastToPull"]}
{"id": "C29", "title": "CastToPush, All, FromSlice, FromChan", "statement": "CastToPush(next)(yield) calls yield on successive elements up to and including the first for which yield returns false; Iter.All ignores yield's result and always visits everything, whereas Slice.All stops at the first false; FromSlice yields the elements in order and, once exhausted, stays exhausted; FromChan hands out every value sent on the channel exactly once, in order, and answers false only when the channel is closed and everything sent before has been handed out.", "quantifier": "all finite element lists and yield functions", "why_tests_cant": "early-stop behaviour for every prefix", "anchors": ["iterator/iterator.go: CastToPush, Iter.All, FromSlice, FromChan", "collections/slice/slice.go: All, Iter"]}
{"id": "C30", "title": "Lines yields the newline-terminated lines only", "statement": "For a readable file, Lines yields in order exactly the newline-terminated lines of the content (each including its newline), stopping early when yield returns false; a final line without a newline is never yielded, so the yielded lines concatenate to the content iff the content is empty or ends in a newline.", "quantifier": "all file contents and yield behaviours", "why_tests_cant": "all byte strings", "anchors": ["iterator/iterator.go: Lines"]}
{"id": "C31", "title": "Delay queue never delivers early and always takes the earliest", "statement": "In every schedule and clock behaviour, an element returned by Pop or PopWithCtx had expiration <= the clock reading taken while it was removed, and no element with a strictly smaller expiration was in the queue at that moment. A Pop that is not disturbed returns an earliest element at once if it has expired, and otherwise sleeps until exactly the earliest expiration (for ever on an empty queue) and then returns it.", "quantifier": "all numbers of pushers and poppers, schedules and clock readings", "why_tests_cant": "concurrent schedules and clock values", "anchors": ["collections/delayqueue/delay_queue.go: Push, Pop, PopWithCtx"]}
{"id": "C32", "title": "Delay queue neither duplicates nor invents elements, and Pop does not lose them", "statement": "In every reachable state the multiset of pushed elements equals the elements still queued plus those taken by Pop/PopWithCtx, each exactly once; without cancellation every taken element is returned. PopWithCtx can take an element and then drop it when its context is cancelled before it returns, and only then.", "quantifier": "all schedules of any number of pushers and poppers", "why_tests_cant": "conservation over all interleavings; the loss needs a precise cancellation instant", "anchors": ["collections/delayqueue/delay_queue.go: Push, Pop, PopWithCtx"]}
{"id": "C33", "title": "Delay queue wake-up protocol", "statement": "With a single consumer using Pop, whenever a consumer commits to waiting for a promised wake-up signal there is exactly one pusher about to send it (no handshake deadlock). But because the sleeping flag is set after the lock is released, a push between the two is not signalled: there is a schedule of one pusher and one consumer after which the consumer waits for ever although an expired element is queued, and with two consumers there is a schedule in which a consumer blocks for ever after its timer fired. A PopWithCtx cancelled while a pusher is about to signal it leaves that Push blocked until somebody else calls Pop. These are the only places where a call waits: Push only for a receiver, Pop and PopWithCtx only for a signal, the timer or (PopWithCtx) the context, and every other step of every call is always possible when the lock is free.", "quantifier": "all schedules of pushers with one (resp. two) consumers", "why_tests_cant": "requires a race in a window of a few instructions", "anchors": ["collections/delayqueue/delay_queue.go: Push, Pop, sleeping, wakeupC"]}
{"id": "C34", "title": "Delay queue Poll and Len", "statement": "Poll never removes anything; on an empty queue it returns (zero,false); when the earliest element has expired it returns that element and true, again on every call; when the earliest element has not expired it returns the zero value with ok = true. Len changes nothing and returns the number of elements pushed and not yet removed at some moment during the call.", "quantifier": "all queue states and clock readings", "why_tests_cant": "named-result shadowing is only visible on a state-dependent branch", "anchors": ["collections/delayqueue/delay_queue.go: Poll, Len"]}
{"id": "C35", "title": "Red-black tree is a map when new keys arrive in increasing order", "statement": "For a comparator that is a total order returning only -1, 0, 1, every history of Put, Get, Has, Delete, DeleteKeys, Size and Clear in which each Put either hits an existing key or uses a key greater than all present keys behaves as a finite map: Put returns true iff the key was absent, Get/Has report the last value put, Delete/DeleteKeys remove exactly the named keys, Size is the number of keys.", "quantifier": "all comparators of that kind and all such histories, including arbitrary deletions", "why_tests_cant": "rebalancing correctness over all histories", "anchors": ["collections/rbtree/redblacktree.go: Put, put, Get, Has, Delete, DeleteKeys, search, remove, putRebalanced, deleteRebalanced, leftRotate, rightRotate"]}
{"id": "C36", "title": "Red-black balance holds for every history", "statement": "After every history of Put and Delete calls (any keys, any order, any -1/0/1 comparator) the reachable tree satisfies the red-black rules: black root, no red node with a red child, equal black counts on all paths; hence its height is at most 2*log2(n+1) for n reachable nodes. Every call returns; Put, PutNode, Get and Has never dereference nil; a Delete that finds its key dereferences nil exactly when that key compares below the zero key while LeftMost is nil, and such histories exist (Put -90, -95, -80; Delete -80, -95, -90).", "quantifier": "all histories and comparators, even when the tree content is wrong", "why_tests_cant": "shape invariant over unbounded histories", "anchors": ["collections/rbtree/redblacktree.go: putRebalanced, deleteRebalanced, remove, put"]}
{"id": "C37", "title": "Red-black Put of a key that belongs on the left loses data", "statement": "Because the comparison result is shadowed, Put links every new node as a right child: if the search for a new key ends at the left of a node, the key is linked on that node's right, unlinking the right subtree it had, while Put returns true and Size grows; afterwards the unlinked keys are not found, and the new key and that node's key are never both found. In particular this happens for every key below the minimum of a non-empty sorted tree. So there are two-Put histories after which Has of a just-inserted key is false and three-Put histories that lose an earlier key while Size counts it.", "quantifier": "all trees and keys whose search path ends on the left", "why_tests_cant": "characterises every state, not one example", "anchors": ["collections/rbtree/redblacktree.go: put, PutNode"]}
{"id": "C38", "title": "Red-black iteration", "statement": "After any history of increasing Puts whose deletions never remove the current minimum (unless it compares below the zero key), Iter on a non-empty tree yields exactly the entries in increasing key order and LeftMost is the first; without deletions RightMost is the last. On a freshly created or cleared tree the first pull of Iter never returns (and String never returns). After deleting from a tree with keys >= the zero key, LeftMost/RightMost can denote removed or wrong nodes, so Iter can yield a deleted entry.", "quantifier": "all increasing histories; all empty trees", "why_tests_cant": "non-termination and all-sizes order cannot be tested", "anchors": ["collections/rbtree/redblacktree.go: Iter, iter, String, LeftMost, RightMost, Init, Clear, remove", "collections/rbtree/redblackbtree_node.go: Next, Prev, MinChildNode"]}
{"id": "C39", "title": "Red-black node buffer never hands out a node in use", "statement": "Node allocation by the tree never returns a node that is currently linked in the tree or was returned to the caller by Delete, for every history of Put, Delete, DeleteKeys and DeleteByWholeMapping; the number of pooled nodes never exceeds the buffer length plus the remaining slice.", "quantifier": "all histories of allocations and frees", "why_tests_cant": "recycling bugs depend on the whole history", "anchors": ["collections/rbtree/node_buffer.go: Alloc, Free, Fill, FillWith", "collections/rbtree/redblacktree.go: allocNode, freeNode"]}
{"id": "C40", "title": "Skip list links and spans are consistent after every history", "statement": "After any history of InsertUnique, InsertEquals, Put, Delete, DeleteKeys, DeleteByWholeMapping, DeleteRangeByKey and Clear with any comparator and any random levels no call or query panics, Iter visits exactly Size elements, forward and backward links agree, Last is the final element of Iter, and GetByRank(r) for 1 <= r <= Size returns the r-th value in Iter order, at every level structure.", "quantifier": "all histories, comparators, keys and random level choices", "why_tests_cant": "random levels and unbounded histories", "anchors": ["collections/skiplist/skiplist.go: insert, deleteNode, GetByRank, Iter, First, Last, Size"]}
{"id": "C41", "title": "Skip list Delete removes nothing and InsertUnique admits duplicates", "statement": "In every reachable state and for every comparator whose zero result is symmetric (in particular every total preorder), Delete returns false and changes nothing, DeleteKeys returns 0, DeleteByWholeMapping never changes the list even when it returns true, and InsertUnique/Put always insert and return true even when the key is present.", "quantifier": "all reachable states, keys and comparators", "why_tests_cant": "universal over states", "anchors": ["collections/skiplist/skiplist.go: Delete, DeleteKeys, DeleteByWholeMapping, insert, InsertUnique, Put"]}
{"id": "C42", "title": "Skip list is a sorted map when keys arrive in decreasing order", "statement": "If every inserted key is smaller than all present keys, then whatever the random levels, Iter is in increasing key order and for every key other than the zero key Has/Get/Rank report exactly membership, value and 1-based position (0 if absent). The zero key is reported present whenever no stored key lies below it, stored or not; a non-zero key reported present is stored, in every history. If keys arrive in another order, present keys can be unreachable: inserting 1 then 2 makes Has(1) false.", "quantifier": "all decreasing histories interleaved with DeleteRangeByKey, all random levels", "why_tests_cant": "random structure; counterexample depends on insertion order", "anchors": ["collections/skiplist/skiplist.go: insert, search, Has, Get, Rank"]}
{"id": "C43", "title": "Skip list range queries", "statement": "On a sorted skip list: IsInAllRange(min,max) holds iff min < max and the first key <= min and the last key >= max; IsInPartOfRange iff min < max, last key >= min and first key <= max; FirstInRange returns the least key >= min when IsInAllRange holds and it is <= max, else nil; LastInRange returns the least key >= max (not the greatest <= max) when IsInAllRange holds; DeleteRangeByKey(min,max) removes exactly the keys in [min,max) and returns their number.", "quantifier": "all sorted skip lists, levels and bounds", "why_tests_cant": "all structures and bounds", "anchors": ["collections/skiplist/skiplist.go: IsInAllRange, IsInPartOfRange, FirstInRange, LastInRange, DeleteRangeByKey"]}
{"id": "C44", "title": "Skip list random level is in range with a geometric law", "statement": "For every 64-bit random draw the chosen level is between 1 and 32, and among the residues of the draw modulo 2^32-1 exactly 2^(32-j) give level j.", "quantifier": "all 2^64 random draws", "why_tests_cant": "exhaustive over 64-bit draws", "anchors": ["collections/skiplist/skiplist.go: randomLevel"]}
{"id": "C45", "title": "B+ tree insertion keeps a balanced sorted tree and loses nothing", "statement": "For degree >= 2 and any total-preorder comparator, after any history of InsertEqual/InsertUnique on a new tree the leaf entries read left to right are sorted and are exactly (as a multiset) the inserted entries, Size is their number, all leaves have equal depth, every non-root node holds between degree-1 and 2*degree-1 keys, and no call panics; LeftMost and RightMost are the leaves with the first and the last entries.", "quantifier": "all degrees >= 2, comparators and insertion histories", "why_tests_cant": "split positions depend on the whole history", "anchors": ["collections/bplustree/bplustree.go: InsertEqual, InsertUnique, insert, insertNonFull, splitChild"]}
{"id": "C46", "title": "B+ tree lookup is sound, and complete except at separators", "statement": "In every tree reached by any history, GetVerify/Get/GetEntry/ContainsKey report a key only if an entry with that key is stored, with a stored value of that key; after insertions only, every stored key that is not equal to a separator in an internal node is found, and so is one that is well placed wherever it is a separator (the halving search of the node stops at it with nothing left before it). If the stored keys are distinct, exactly these are found: ContainsKey(k) is true iff k is stored and well placed, and the middle separator of an internal node with three or more is a stored key that no lookup finds. An insertion-only history with at most 4*degree-3 insertions has no such node: every call then has exactly the effect and reply of a sorted multimap. With one insertion more there is an insertion history of distinct keys (degree 2) after which ContainsKey of an inserted key is false, so InsertUnique stores it twice.", "quantifier": "all insertion histories and keys", "why_tests_cant": "depends on where binary search meets a separator", "anchors": ["collections/bplustree/bplustree.go: search, ContainsKey, Get, GetVerify, GetEntry, InsertUnique"]}
{"id": "C47", "title": "B+ tree deletion", "statement": "While at most 2*degree-1 insertions have been made, every call has exactly the effect of a sorted multimap (deleting from a single leaf removes exactly one entry with that key). With one insertion more this is no longer so: at degree 2, inserting the distinct keys 4, 3, 2, 1 and deleting 4 leaves the keys 1, 2, 3, 3. In any tree Delete either panics or keeps the tree balanced, replies what ContainsKey would have replied, and changes the stored entries at most by overwriting one entry with its left neighbour and then removing at most one entry whose key is not above the given one; Size stays the number of entries. Counterexamples to more: Delete of a present key can leave that key, lose another key and duplicate a third; it can reply true and remove nothing; a key deleted and re-inserted can be invisible to lookup; and Delete of a present key can panic with an index out of range.", "quantifier": "all histories of insertions, deletions and lookups, all comparators; existence for the counterexamples", "why_tests_cant": "needs specific sibling occupancies", "anchors": ["collections/bplustree/bplustree.go: Delete, delete, deleteNonOne, shiftToRightChild, shiftToLeftChild, mergeChild"]}
{"id": "C48", "title": "B+ tree after Clear", "statement": "After Clear every Insert returns true but stores nothing: Size stays 0 and ContainsKey stays false for all later histories of insertions and lookups; RightMost panics and LeftMost returns nil.", "quantifier": "all trees and all later histories", "why_tests_cant": "universal over later histories", "anchors": ["collections/bplustree/bplustree.go: Clear, insert, InsertUnique, InsertEqual, LeftMost, RightMost"]}
{"id": "C49", "title": "B+ tree DeleteByWholeMapping condition", "statement": "DeleteByWholeMapping(key,val,comp) attempts the deletion exactly when lookup finds the key with a stored value strictly smaller than val under comp, not when the values are equal; otherwise it returns false and changes nothing.", "quantifier": "all trees, keys, values and value comparators", "why_tests_cant": "universal over value comparators", "anchors": ["collections/bplustree/bplustree.go: DeleteByWholeMapping"]}
{"id": "C50", "title": "Lock-free skip list Add, Del, Has and Get are linearizable", "statement": "For any number of goroutines running Add, Del, Has and Get (and Rank and Len, which never disturb the others) in any interleaving of their atomic loads and compare-and-swaps, with any random tower heights, every completed call's result is that of the corresponding set operation at some instant between its invocation and its return, with the updates taking effect one at a time in that order.", "quantifier": "all goroutine counts, programs, tower heights and schedules", "why_tests_cant": "lock-free interleavings cannot be enumerated by tests", "anchors": ["collections/lockfreeskiplist/lockfree_skiplist.go: Add, Del, Has, Get, find, get, casNext, loadNext, isMarked"]}
{"id": "C51", "title": "Lock-free skip list bottom level stays a sorted chain from head to tail", "statement": "In every reachable state of every schedule, following bottom-level links from the head reaches the tail through strictly increasing values, contains every live element exactly once; the links of every level lead to the tail and only to nodes already linked at the bottom; when the calls made so far did not overlap, the elements met on level l are exactly those whose tower is higher than l; when additions have overlapped this can fail even when all calls have returned (an element is missing from a level its tower reaches), and later calls that do not overlap never link a node again on a level it is missing from; no call dereferences nil or indexes a tower out of range.", "quantifier": "all schedules", "why_tests_cant": "structural invariant over all interleavings", "anchors": ["collections/lockfreeskiplist/lockfree_skiplist.go: find, Add, Del"]}
{"id": "C52", "title": "Lock-free skip list Len", "statement": "When no call is in progress Len equals the number of elements; in general Len differs from it by at most the number of calls in progress, and it can be transiently negative.", "quantifier": "all schedules", "why_tests_cant": "transient states are only visible in particular interleavings", "anchors": ["collections/lockfreeskiplist/lockfree_skiplist.go: Len, Add, Del, size"]}
{"id": "C53", "title": "Lock-free skip list Get and Rank, sequentially", "statement": "In a quiescent list Get(v) returns the least stored element >= v (not only v itself), or the zero value if there is none; Rank(v) returns Len when Len <= 1 and otherwise a number between 1 and 1 + the number of stored elements smaller than v (1 plus the number of tower hops on the search path), which can be strictly smaller than the element's position. When the calls made so far did not overlap, Rank(v) with at least two elements is exactly 1 + the number of elements smaller than v whose tower is not exceeded by that of a later element smaller than v, hence the position of v exactly when the towers of the smaller elements never grow from left to right. When additions have overlapped, this exact value can be missed for good, also on a quiescent list, in either direction (three elements of equal height below v and Rank(v) = 3; heights 2, 1, 2 below v and Rank(v) = 4). (With other goroutines running, Rank can exceed 1 + the number of elements: it does not restart its count when its search restarts.)", "quantifier": "all quiescent lists and values", "why_tests_cant": "depends on random towers", "anchors": ["collections/lockfreeskiplist/lockfree_skiplist.go: Get, get, Rank, getRank"]}
{"id": "C54", "title": "Fixed-size hashers agree with XXH64 of the little-endian bytes", "statement": "The hash of a 1-, 2-, 4-, 8- or 16-byte key equals the hash of the string consisting of its little-endian bytes, and the string hash is XXH64 with seed 0 for every byte string.", "quantifier": "all keys of each width and all byte strings", "why_tests_cant": "2^64 keys and unbounded strings", "anchors": ["util/hasher/hash.go: byteHasher, wordHasher, dwordHasher, qwordHasher, complex128Hasher, stringHasher"]}
{"id": "C55", "title": "Integer keys of one width never collide", "statement": "Distinct 64-bit keys have distinct hashes, and likewise distinct 32-bit, 16-bit and 8-bit keys: each fixed-width integer hash is injective.", "quantifier": "all pairs of keys of each width", "why_tests_cant": "2^128 pairs", "anchors": ["util/hasher/hash.go: qwordHasher, dwordHasher, wordHasher, byteHasher"]}
{"id": "C56", "title": "Hash is usable only for predeclared types", "statement": "GetHashFunc returns a function for every predeclared type of the constraint and nil for every named type derived from one (and Hash then panics), although the constraint admits such types.", "quantifier": "all types admitted by the constraint", "why_tests_cant": "infinitely many derived types", "anchors": ["util/hasher/hash.go: GetHashFunc, Hash", "util/constraints/builitn.go: Hashable"]}
{"id": "C57", "title": "Hash respects key equality except for floats", "statement": "Equal integer and string keys hash equally; for float64/float32 keys == does not imply equal hashes: 0.0 and -0.0 are equal and hash differently, while equal non-zero floats hash equally.", "quantifier": "all pairs of float64/float32 bit patterns", "why_tests_cant": "2^64 bit patterns", "anchors": ["util/hasher/hash.go: float64Hasher, float32Hasher"]}
{"id": "C58", "title": "Predicate and function combinators", "statement": "Predicate And, Or, Negate and Not are pointwise conjunction, disjunction and negation with short-circuit evaluation order; Compose(f,g) is g after f and AndThen(f,g) is g after f; Consumer.AndThen runs both in order. BinPredicate.Or is not disjunction: it equals And.", "quantifier": "all predicates, functions and arguments", "why_tests_cant": "higher-order universal statement", "anchors": ["fn/function.go: Compose, AndThen, Predicate.And, Predicate.Or, Negate, Not, Consumer.AndThen, BinPredicate.And, BinPredicate.Or"]}
{"id": "C59", "title": "Comparators must return -1, 0 or 1", "statement": "fn.Comp is a total order returning only -1, 0, 1 on integers and strings. The red-black tree and skip-list search treat any other non-zero result as equality: with the comparator a-b, Put(1,x) then Put(3,y) on a red-black tree overwrites x and returns false, whereas the priority queue and B+ tree depend only on the sign.", "quantifier": "all comparators with the same sign function", "why_tests_cant": "quantifies over comparators", "anchors": ["fn/comp.go: Comp, Compare", "collections/rbtree/redblacktree.go: put, search", "collections/skiplist/skiplist.go: search", "collections/priorityqueue/priorityqueue.go: percolateUp", "collections/bplustree/bplustree.go: search"]}
{"id": "C60", "title": "SortedSet cannot be used", "statement": "sortedset.New returns nil for every type and every Set or Get on its result panics.", "quantifier": "all type arguments and calls", "why_tests_cant": "universal over calls", "anchors": ["collections/sortedset/sorted_set.go: New, Set, Get"]}
{"id": "C61", "title": "The node returned by Delete may carry another entry", "statement": "Delete of a present key returns an unlinked node, which keeps its contents until the caller changes it; but the node is either the one found or the in-order successor of the node found, carrying the successor's key and value (when the found node had two children). PutNode that answers true puts exactly the node handed over into the tree, with the key and the value it holds; one that answers false leaves it to the caller and only gives its value to a node of an equal key. PutNode never changes Size. So handing the node returned by Delete(k) back with PutNode does not restore k: after Put 1,2,3, PutNode(Delete(2)) leaves 2 absent and Size 2.", "quantifier": "all reachable trees and keys", "why_tests_cant": "depends on tree shape after arbitrary histories", "anchors": ["collections/rbtree/redblacktree.go: Delete, remove, PutNode"]}
{"id": "C62", "title": "Lock-free skip list: a goroutine that runs alone finishes", "statement": "From every reachable state, whatever the other goroutines were doing when they stopped, a goroutine that keeps taking steps completes its call (Add, Del, Has, Get, Rank or Len) within a bounded number of its own steps, for any tower heights.", "quantifier": "all reachable states, calls and tower heights", "why_tests_cant": "depends on every intermediate state the other goroutines can leave", "anchors": ["collections/lockfreeskiplist/lockfree_skiplist.go: find, get, getRank, Add, Del"]}
{"id": "C63", "title": "Lock-free skip list: some call always completes", "statement": "Lock-freedom: in every infinite execution of any number of goroutines, in any state reached, some call returns infinitely often; between two returns the number of steps is bounded by a function of the state, and whenever a call is in progress the goroutine running it has a next step (no goroutine ever waits for another). So a goroutine can only be delayed because others complete operations. It is not wait-free: a Has can take infinitely many steps and never return while another goroutine keeps calling Add and Del.", "quantifier": "all infinite schedules from all reachable states, all tower heights", "why_tests_cant": "liveness over infinite executions", "anchors": ["collections/lockfreeskiplist/lockfree_skiplist.go: find, get, getRank, Add, Del"]}
{"id": "C64", "title": "Parallel TryFold, AllMatch and AnyMatch", "statement": "With parallelism p between 1 and n (the slice's length), TryFold returns in every schedule; (v, true) means v folds the results of exactly p of the contiguous non-empty segments the slice is cut into, all of which fold, and none is left out exactly when p divides n; (v, false) means some segment does not fold or folding the results failed. When p divides n, AllMatch and AnyMatch give the right answer in every schedule and every goroutine ends; otherwise AllMatch may return true although an element does not match, AnyMatch may return false although one matches, and a goroutine can stay blocked for ever. With fewer elements than p TryFold never returns and AllMatch and AnyMatch return false; First returns the first element exactly if n >= p.", "quantifier": "all slices, parallelisms, callbacks and goroutine schedules", "why_tests_cant": "depends on goroutine interleavings and on cancellation races", "anchors": ["stream/tryfold.go: TryFold", "stream/all_any_match.go: AllMatch, AnyMatch", "stream/first.go: First", "stream/stream.go: doParallel"]}
{"id": "C65", "title": "Sum, Reduce, Max and Min at any parallelism", "statement": "On a slice stream with parallelism 0, or a positive parallelism p that divides the length n > 0: in every schedule Sum is the sum, Max the maximum, Min the minimum, a fold through Map and Filter stages with an associative and commutative combiner with unit init is the sequential fold of the mapped and filtered elements, and Reduce with an associative, commutative operation returns the reduction with the first element counted p+1 times too often. With fewer elements than p Sum never returns and Reduce, Max and Min return the zero value even if the slice is not empty; when p does not divide n each of them can panic the process and Max can miss the maximum; a negative parallelism panics.", "quantifier": "all slices, parallelisms, operations and goroutine schedules", "why_tests_cant": "depends on goroutine interleavings for every p and n", "anchors": ["stream/sum.go: Sum", "stream/reduce.go: Reduce, ReduceWith", "stream/max_min.go: Max, MaxBy, Min, MinBy", "stream/fold.go: Fold, FoldWith", "stream/map.go: Map", "stream/filter.go: Filter"]}
{"id": "C66", "title": "FoldWith and Collect on any stream, at any parallelism", "statement": "For every stream whose generator hands out fixed segments when activated, however it was built: parallel Collect hands every element of every segment to the consumer exactly once, in order within a segment, and returns in every schedule; parallel FoldWith returns in every schedule if the number of segments equals the parallelism and then, for an associative and commutative combiner with unit init, its value is the fold over all elements; with fewer segments it never returns, with more a goroutine can panic the process after the return. Slices, linked lists, skip lists and (non-empty, put in ascending order) red-black trees are all cut alike, and any chain of Map, Filter, SkipWhile, Inspect and FlatMap stages maps segments to segments, so a pipeline over any of them with parallelism p between 1 and its length n computes the sequential result exactly when p divides n. Zip of two slices in parallel gives the pairs of the two if they have equal length, otherwise wrong pairs; a Chain of sequential streams made parallel never folds.", "quantifier": "all streams, stage chains, containers reached by any history, parallelisms and goroutine schedules", "why_tests_cant": "quantifies over pipelines, container histories and goroutine interleavings at once", "anchors": ["stream/fold.go: FoldWith", "stream/collect.go: Collect", "stream/stream.go: doParallel", "stream/zip.go: Zip", "stream/chain.go: Chain", "collections/linkedlist/linkedlist.go: SplitableIter", "collections/skiplist/skiplist.go: SplitableIter", "collections/rbtree/redblacktree.go: SplitableIter, Stream"]}
{"id": "C67", "title": "Iterators and node handles while the container changes", "statement": "What a running iterator and a kept node see when the container is changed under them. Linked list: after any history the iterator that last yielded element e yields what now follows e, with the values of now; if e has been removed the next pull panics; after Clear or Init it goes on over the old elements. Skip list: no call changes the entry of an existing node (SetValue changes the value of its node), removals keep the order of the rest, an insertion adds one node, and an iterator holding a node still in the list yields the entries from there on; after Clear it goes on over the old nodes. Red-black tree: an iterator holding a linked node yields the entries from there on in order; Put leaves every node in place with its entry except that it overwrites the value of the node found (and drops the subtree of C37); Delete unlinks exactly the node it returns, and the node of the deleted key, if another, takes over that node's entry - so Iter, which hands out pointers to the entries in the nodes, and Delete do not mix: deleting the key just yielded can make the iterator yield the next entry twice, deleting the next key does not keep it from being yielded and repeats an earlier one. Writing a key or value through a node or through a pointer got from Iter changes that entry and nothing else, at any time, and while the keys stay in order Has, Get and Put of present keys remain those of a map; a key written out of order makes others unfindable although Iter shows them.", "quantifier": "all histories, iterator positions and changes", "why_tests_cant": "depends on container shape after arbitrary histories and on the point at which the change happens", "anchors": ["collections/linkedlist/linkedlist.go: Iter, Remove, Clear, Init", "collections/skiplist/skiplist.go: Iter, Clear, deleteNode", "collections/rbtree/redblacktree.go: Iter, Put, Delete, remove"]}
{"id": "C68", "title": "String shows the entries", "statement": "For every history, String on a skip list returns the entries left in it, in their order, as k:v separated by single spaces and in square brackets, whatever the rendering of keys and values. On a red-black tree it does so, in key order, in every non-empty tree built by puts in ascending order and deletions that keep the minimum (C38); on a new tree and after Clear String never returns; after other deletions the text can show an entry that is no longer in the tree.", "quantifier": "all histories, comparators, renderings of keys and values", "why_tests_cant": "depends on the container shape after arbitrary histories; non-termination is not observable by a test", "anchors": ["collections/skiplist/skiplist.go: String", "collections/rbtree/redblacktree.go: String"]}
{"id": "C69", "title": "The comparator of a container is fixed", "statement": "The comparator a red-black tree or skip list works with is the first non-nil one given to it by its constructor or SetCompareFunc; later calls of SetCompareFunc do not replace it and Clear keeps it; GetCompareFunc returns it.", "quantifier": "all sequences of SetCompareFunc and Clear after construction", "why_tests_cant": "ranges over all call sequences", "anchors": ["collections/skiplist/skiplist.go: SetCompareFunc, GetCompareFunc, Clear", "collections/rbtree/redblacktree.go: SetCompareFunc, GetCompareFunc, Clear"]}
{"id": "C70", "title": "TryFold, First, AllMatch and AnyMatch on any stream, at any parallelism", "statement": "For every stream whose generator hands out k fixed segments when activated with parallelism p >= 1, however it was built: if k >= p TryFold returns in every schedule; if k < p it never returns true, and never returns unless the callback refuses something; (v, true) means v folds the results of exactly p segments, all of which fold; (v, false) means folding some results failed with v, or some segment does not fold; if k <= p no goroutine stays blocked. A negative parallelism panics before anything is pulled. First returns the first element of the first segment. If k = p and the first segment is not empty AllMatch and AnyMatch give the right answer in every schedule; if the first segment is empty both return false whatever the others hold. So over any slice, linked list, skip list or (non-empty, put in ascending order) red-black tree of length n with p dividing n, through any chain of Map, Filter, SkipWhile, Inspect and FlatMap stages, the answers are the sequential ones unless the stages leave nothing of the first n/p elements.", "quantifier": "all streams, stage chains, parallelisms, callbacks and goroutine schedules", "why_tests_cant": "quantifies over pipelines, goroutine interleavings and cancellation races at once", "anchors": ["stream/tryfold.go: TryFold", "stream/all_any_match.go: AllMatch, AnyMatch", "stream/first.go: First", "stream/stream.go: doParallel"]}
{"id": "C71", "title": "Data races of the concurrent containers", "statement": "Queue: in every execution of Push, Pop, Peek, Len and Empty by any number of goroutines the only data races are on the element counter, between the plain increment or decrement of a Push or Pop and the atomic load of a Len or Empty; without Len and Empty there is none, and with a Push and a Len there is one. DelayQueue: the only data races are on the heap's size, between Len, which takes no lock, and a Push or Pop; without Len there is none, and with a Push and a Len there is one. Lock-free skip list: no data race; value, level and links array of a node never change after it is visible and everything else is accessed atomically. A node is accessed only after it was made.", "quantifier": "all executions of any number of goroutines", "why_tests_cant": "ranges over all schedules; the race detector only sees the schedule that ran", "anchors": ["collections/queue/queue.go: Push, Pop, Peek, Len, Empty", "collections/delayqueue/delay_queue.go: Push, Pop, PopWithCtx, Poll, Len", "collections/priorityqueue/priorityqueue.go: Push, Pop, Peek, Len", "collections/lockfreeskiplist/lockfree_skiplist.go: Add, Del, Has, Get, Rank, Len"]}
{"id": "C72", "title": "Comparator calls", "statement": "Whatever the comparator answers and whatever the history: Push into a priority queue of n elements calls the comparator at most log2(n+1) times and Pop at most 2*log2(n-1) times; Has, Get and Put on a red-black tree of n nodes call it at most 2*log2(n+1) times, Delete at most twice more, and every loop of every call goes round at most 2*log2(n+1)+2 times; on a B+ tree of degree d >= 2 with n entries, whose depth is at most log2 n, ContainsKey calls it at most (log2 n + 1)*(log2(2d-1) + 1) times, InsertEqual at most (log2 n + 2)*(2d-1) times and InsertUnique at most their sum. On a skip list, whatever the heights drawn, Has, Get and Rank call it at most Size + 64 times, an insertion or a Delete at most Size + 33 times, DeleteRangeByKey at most Size + 32 times; nothing better than linear holds for every sequence of draws (for every n, n insertions after which Has makes n + 1 calls).", "quantifier": "all histories, comparators, sizes and degrees", "why_tests_cant": "a worst case over all histories and comparators; measuring some inputs bounds none of the others", "anchors": ["collections/priorityqueue/priorityqueue.go: Push, Pop", "collections/rbtree/redblacktree.go: Has, Get, Put, Delete", "collections/bplustree/bplustree.go: ContainsKey, InsertEqual, InsertUnique", "collections/skiplist/skiplist.go: Has, Get, Rank, InsertUnique, InsertEquals, Delete, DeleteKeys, DeleteByWholeMapping, DeleteRangeByKey, search"]}
{"id": "C73", "title": "Panicking callbacks in streams", "statement": "Nothing in the package recovers. Map, Filter and Inspect with callbacks that panic at some elements: the segment yields what it yields up to the first such element and the pull of that one panics. With parallelism 0 FoldWith (and Collect) makes exactly the calls of the left fold up to the first panic, of a stage, of the callback or of the consumer, and the panic reaches the caller. With parallelism p >= 1: a value returned by FoldWith combines p results of whole segments in which nothing panicked, and the call itself panics only if the combiner does, on such results. If there are p segments and something panics in one of them, FoldWith never returns a value and every execution ends, with the process terminated; if nothing panics in any segment every execution ends with FoldWith returned, or panicked in the caller by the combiner, and all goroutines gone. Collect, any number of segments: each goroutine has at any time handed a beginning of its segment to the consumer; if something panics in some segment Collect never returns and every execution ends with the process terminated, otherwise it returns with everything handed over. TryFold with negative parallelism panics at once in the caller; with parallelism 0 it calls the callback with the elements of the first segment up to the first refusal or panic, and a panic reaches the caller; with parallelism p >= 1 a returned value folds results of segments that fold (p of them if the answer is true), the call panics only if folding such results does, and the process is terminated only if a segment panics; with at least p segments every execution ends; with exactly p, one of which panics, TryFold never returns true, and if nothing is refused every execution ends with the process terminated; if one segment is refused and another panics TryFold can return false and the panic still terminate the process afterwards.", "quantifier": "all streams with fixed segments, callbacks that panic at any elements, parallelisms and goroutine schedules", "why_tests_cant": "whether a panic or the return comes first depends on the schedule; a test sees one", "anchors": ["stream/map.go: Map", "stream/filter.go: Filter", "stream/inspect.go: Inspect", "stream/fold.go: FoldWith", "stream/collect.go: Collect", "stream/tryfold.go: TryFold", "stream/stream.go: doParallel"]}
{"id": "C74", "title": "A comparator that panics", "statement": "The caller's comparator (or the value comparator given to DeleteByWholeMapping) panics at any one comparison of a call and the caller recovers and goes on with the container; no method restores anything on the way out. Priority queue, any comparator and any history with such abandoned calls: no later call panics by itself or runs forever, an abandoned Push has added its element (and left the front as it was), an abandoned Pop has removed nothing, every Pop that returns gives the front, so no element is lost or duplicated; but the order is lost (later Pops can come out of order) until the queue has run empty, when it is a correct priority queue again. Red-black tree: an abandoned Put, PutNode, Get, Has, Delete or DeleteByWholeMapping has changed nothing at all, an abandoned DeleteKeys is a DeleteKeys of some of the first keys, so all that holds of histories without panics (C35-C39) still holds. Skip list: likewise for insertions, lookups, Delete, DeleteByWholeMapping and DeleteKeys; an abandoned DeleteRangeByKey has removed some of the first entries of its block, and the list stays consistent (C40).", "quantifier": "all histories, comparators and comparisons at which the panic strikes", "why_tests_cant": "the panic can strike at every comparison of every call of every history; a test picks a few", "anchors": ["collections/priorityqueue/priorityqueue.go: Push, Pop, Peek, Len", "collections/rbtree/redblacktree.go: Put, PutNode, Get, Has, Delete, DeleteKeys, DeleteByWholeMapping", "collections/skiplist/skiplist.go: InsertUnique, InsertEquals, Has, Get, Rank, Delete, DeleteKeys, DeleteByWholeMapping, DeleteRangeByKey"]}
{"id": "C75", "title": "A comparator that panics: the B+ tree", "statement": "As C74, for the B+ tree of degree at least 2. Any tree, any comparator: a call abandoned by a panicking comparator leaves Size as it was, and an abandoned lookup leaves everything. An abandoned InsertEqual adds nothing; if the root had room the entries are as before or one is stored twice and a later one is gone, and if the root was full its last entries, at least degree-1 of them, are gone as well; an abandoned InsertUnique likewise or, if its lookup was abandoned, nothing has changed. An abandoned Delete or DeleteByWholeMapping leaves the entries as they were or one overwritten by its left neighbour. In every history of insertions and lookups, abandoned anywhere and any number of times, no call panics by itself or runs forever, the tree stays balanced, within its bounds and in order, every entry was inserted by a call that returned, and Size is the number of those calls, not that of the entries left. With deletions no call runs forever either, but one can panic by itself after an abandoned deletion, in a tree where it would not have without it.", "quantifier": "all histories, comparators, degrees and comparisons at which the panic strikes", "why_tests_cant": "the panic can strike at every comparison of every call of every history; a test picks a few", "anchors": ["collections/bplustree/bplustree.go: InsertEqual, InsertUnique, Delete, DeleteByWholeMapping, GetVerify, ContainsKey, insert, insertNonFull, delete, deleteNonOne"]}
{"id": "C76", "title": "Walking a red-black tree from node to node", "statement": "In every state of every history, whatever the comparator, the nodes of the tree stand in a line: Next leads from each to the one after it and to nil from the last, Prev the other way, and no node is left out or met twice; MinChildNode and MaxChildNode of a node are the first and the last of the nodes below it, which stand together in the line. If Puts came in ascending order (C35), with any deletions, the entries along the line are exactly those of the map in key order; without deletions RightMost is the end of the line, so that following Prev from it gives the entries backwards.", "quantifier": "all histories, comparators and nodes of the tree", "why_tests_cant": "depends on the tree shape after arbitrary histories; a missed node shows only in some shapes", "anchors": ["collections/rbtree/redblackbtree_node.go: Next, Prev, MinChildNode, MaxChildNode", "collections/rbtree/redblacktree.go: LeftMost, RightMost"]}
{"id": "C77", "title": "Delay queue: callbacks that panic in Push", "statement": "The comparator given to the queue, which Push calls after unlocking, panics in any Pushes and the callers recover: still nothing is delivered early or out of order, everything pushed (those elements included) is queued or was taken exactly once, whoever holds the lock can go on, and with one consumer the signal handshake still works; but a consumer that sleeps is not woken by such a Push: there is an execution after which it sleeps for ever although an expired element is queued, whatever later elements are pushed. If instead Expiration panics, which Push calls with the lock held, the lock is never released again: in every continuation the queue keeps what it holds, nothing is pushed, taken or polled any more, and every Push, Pop, PopWithCtx and Poll that waits for the lock or is called later waits for ever; only Len still answers.", "quantifier": "all executions of any number of goroutines and all points at which the callbacks panic", "why_tests_cant": "ranges over all schedules and continuations; waiting for ever is not observable by a test", "anchors": ["collections/delayqueue/delay_queue.go: Push, Pop, PopWithCtx, Poll, Len"]}
{"id": "C78", "title": "Lock-free skip list: a comparator that panics", "statement": "The caller's comparator panics at any comparisons of calls by any goroutines, and the callers recover and go on. Taking an abandoned call as one that does not return, every history is linearizable to the sorted set of C50, the bottom level stays in strictly increasing order and leads from head to tail as does every level, no call panics by itself, and calls keep returning (or being abandoned) whatever the schedule, with boundedly many steps between. An abandoned call either has no effect or is an Add that has inserted its element; each such Add is missing from Len for ever: on a quiet list Len answers the number of elements less the number of those Adds (an empty list can answer -1), and while calls are in progress the counter is off by at most their number more. When calls do not overlap, an abandoned call changes no element and no tower, and Add, Del, Has, Get, Len and Rank answer as if it had not been made.", "quantifier": "all executions of any number of goroutines, all comparators that order, and all comparisons at which they panic", "why_tests_cant": "ranges over all schedules and all panicking comparisons; the lost count needs a failed CAS followed by a panic", "anchors": ["collections/lockfreeskiplist/lockfree_skiplist.go: New, Add, Del, Has, Get, Rank, Len, find, get, getRank, less, equals"]}
{"id": "C79", "title": "Parallel folds whose callbacks take time", "statement": "Callbacks of parallel FoldWith, Collect and TryFold take any time, may never end and may answer anything; pulls, which run the callbacks of earlier stages, take time too. Each goroutine pulls and calls in turn, one thing at a time, in the order of its segment, its first call getting the initial value and every other the answer of the one before. FoldWith and a TryFold that answers true return only what p goroutines that are through have sent, combined by the caller one after the other; when there are p segments, and for Collect always, the return is the last event, so a callback that does not end keeps them from returning and none runs afterwards; with more segments than p FoldWith can return while callbacks run. A slow callback holds up its own goroutine only; all goroutines can be in their first call at once, with the one initial value as accumulator. TryFold answers false only after a refusal, with the answer of the refusing call if the caller made it and otherwise with the result received last (the zero value if none); it can answer as soon as a goroutine has refused whatever the other goroutines are doing, and after the answer each goroutine begins at most one more pull and one more call. So AllMatch and AnyMatch with as many segments as p, started from an element of the stream, answer whether all, or some, elements match, whatever the schedule and however long the predicate takes; with more segments than p AllMatch can answer true although an element does not match. If the callbacks all end, executions are bounded and end with the return.", "quantifier": "all segments, parallelisms, callbacks (any answers, any durations) and interleavings", "why_tests_cant": "ranges over all interleavings of entries to and exits from callbacks, including callbacks that never end", "anchors": ["stream/stream.go: doParallel", "stream/fold.go: FoldWith", "stream/collect.go: Collect", "stream/tryfold.go: TryFold", "stream/all_any_match.go: AllMatch, AnyMatch"]}
{"id": "C80", "title": "What a container keeps reachable after it gave elements away", "statement": "From a linked queue one gets, following pointers, to exactly the nodes of its elements; from a linked list in use to exactly its elements; from a skip list to exactly the header and one node per entry: what was popped, removed or deleted can be freed. An element removed from a linked list refers to nothing. But: a node handed out by PopNode keeps every node that was behind it for as long as it is held, also those popped since; linkedlist.Clear keeps every element reachable from the list until something is inserted again; the priority queue keeps every popped element in its slice, most recent first, until a later Push takes the slot; the red-black tree's DeleteKeys keeps the key and value of the node it took out in the tree's pool, unless the free list already holds 16; slice.Delete leaves the cells behind its result as they were, so the last elements of the old slice stay in the array even if they were deleted; the B+ tree does not clear the slots it vacates: an empty tree can still hold a deleted entry in every slot of its root; the lock-free skip list's Del leaves the node it removes, and every node behind it, linked at the bottom level (when nothing else runs), so values removed in descending order all stay reachable although the list is empty; and a later search for a removed value need not free its node.", "quantifier": "all histories of calls, elements and comparators", "why_tests_cant": "what stays reachable is not visible through any call, so no test of results can settle it; ranges over all histories", "anchors": ["collections/queue/queue.go: Linked, PopNode", "collections/linkedlist/linkedlist.go: Remove, Clear", "collections/priorityqueue/priorityqueue.go: Push, Pop", "collections/skiplist/skiplist.go: Delete, DeleteRange, Clear, deleteNode", "collections/rbtree/node_buffer.go: Free, Alloc", "collections/rbtree/redblacktree.go: DeleteKeys", "collections/slice/slice.go: Delete", "collections/bplustree/bplustree.go: Delete, deleteNonOne", "collections/lockfreeskiplist/lockfree_skiplist.go: Del, find"]}
{"id": "C81", "title": "Containers made with a nil comparator", "statement": "A method of a container that was made with a nil comparator panics exactly when it comes to a comparison; if the caller recovers each time: a red-black tree, skip list or B+ tree takes one entry and never a second; with an entry in it every call with a key panics and changes nothing (DeleteKeys of no keys excepted), while Size and Clear work; the skip list's Has, Get, Rank and DeleteByWholeMapping panic on an empty list too. Once SetCompareFunc is called, which has an effect only the first time, the red-black tree and the skip list behave as if what they hold had been inserted under the new comparator. A priority queue's Push panics from the second element on although it has added the element; Pop works up to two elements and panics from three on, each time exchanging the first and the last element, so that a queue that has held three can never be emptied. A lock-free skip list, used by any number of goroutines, takes at most one element: one Add at most ever returns true, no other call but Rank and Len answers other than on an empty list, while it is empty every call can return, and once the element is in, Add, Del, Has and Get called from then on never return and can only panic, changing nothing; nobody is ever stuck. A delay queue delivers nothing early and loses nothing, but every Push ends in a panic, after it has added its element, and wakes nobody: a Pop that found the queue empty sleeps for ever, whatever is pushed.", "quantifier": "all histories of calls before and after SetCompareFunc, all comparators given later, all elements; for the concurrent containers all executions of any number of goroutines", "why_tests_cant": "ranges over all histories; what a panicking call left behind shows only in later calls", "anchors": ["collections/rbtree/redblacktree.go: New, SetCompareFunc, Put, Get, Has, Delete, DeleteKeys, DeleteByWholeMapping", "collections/skiplist/skiplist.go: New, SetCompareFunc, insert, Delete, DeleteRangeByKey, search", "collections/priorityqueue/priorityqueue.go: Push, Pop", "collections/bplustree/bplustree.go: NewMap, InsertEqual, InsertUnique, Delete, GetVerify", "collections/lockfreeskiplist/lockfree_skiplist.go: NewLockFreeSkipList, less, equals, find", "collections/delayqueue/delay_queue.go: NewDelayQueue, Push"]}
{"id": "C82", "title": "Parallel folds whose callbacks take time and panic", "statement": "Callbacks (and earlier stages) of parallel FoldWith, Collect and TryFold take any time, may never end, may answer anything and may panic. What happens is then an execution without panics, up to the panic: a panic in a goroutine, which was in pull or in the callback, is the last thing that happens, whatever the others are doing, even if they would run for ever. A panic of FoldWith's combiner, or of f run by the caller of TryFold, leaves the call instead of an answer, what was received before having been combined, and the goroutines go on to the ends of their segments (TryFold does not cancel them) and can still end the process by a panic of their own. FoldWith with as many segments as the parallelism, Collect, and a TryFold that answers true return only when every call has been answered, nothing has panicked, and nothing can panic any more; with more segments FoldWith can return and a callback end the process afterwards, or a panic of the combiner leave goroutines blocked for ever. A TryFold that answers false had a refusal and no panic before, but a panic can end the process afterwards. If callbacks all end or panic, every execution ends in one of these ways.", "quantifier": "all segments, parallelisms, callbacks (any answers, durations and panics) and interleavings", "why_tests_cant": "ranges over all interleavings of entries to, exits from and panics of callbacks; the end of a process can be seen by a test only once", "anchors": ["stream/stream.go: doParallel", "stream/fold.go: FoldWith", "stream/collect.go: Collect", "stream/tryfold.go: TryFold"]}
{"id": "C83", "title": "What Inorder of a B+ tree prints", "statement": "After any history of calls, with any comparator, Inorder on the root node ends and prints the mappings met when the tree is read from left to right: every stored entry, and the separator of every inner node position as a line of its own. If nothing was deleted and the comparator orders, the lines ascend, they are the stored entries once each and further lines whose keys equal stored keys; so an entry can be printed twice, and after a deletion a key that is stored no more can still be printed. On the node LeftMost returns it prints the entries of that leaf, the first ones of the tree; on nil nothing.", "quantifier": "all histories of insertions, deletions and lookups, all degrees from 2 and all comparators", "why_tests_cant": "ranges over all histories and tree shapes; the tests never print a tree", "anchors": ["collections/bplustree/bplustree_node.go: Inorder, MinimumNode", "collections/bplustree/bplustree.go: NewMap, InsertEqual, InsertUnique, Delete, LeftMost"]}
