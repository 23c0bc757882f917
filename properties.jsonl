{"id": "C01", "title": "Heap/PriorityQueue: Pop and Peek always return a minimum", "statement": "For a heap or priority queue built by New from any slice and driven by any sequence of Push, Pop, Peek, Remove(i) and change-then-Fix(i), every Pop and every Peek returns a present element that no other present element is less than; they panic exactly when the heap is empty.", "quantifier": "every element type, every strict weak order passed as less, every initial slice, every finite operation sequence", "why_tests_cant": "the heap shape after n operations depends on the whole history; tests sample a few histories and sizes", "anchors": ["common/container/heap/heap.go:New,Pop,Peek,Push,Remove,Fix,init,up,down", "common/container/pqueue/pqueue.go"]}
{"id": "C02", "title": "Heap/PriorityQueue: no element lost, duplicated or invented", "statement": "After any operation sequence the multiset of elements held is exactly the initial slice plus pushed elements minus the elements returned by Pop/Remove (with Fix replacing the one changed element), and Len/Empty report its size. This holds for any less function at all, ordered or not.", "quantifier": "every less function (even inconsistent ones), every initial slice, every operation sequence", "why_tests_cant": "conservation must hold along every path through up/down for every comparison outcome", "anchors": ["common/container/heap/heap.go:Push,Pop,Remove,Fix,Len,Empty"]}
{"id": "C03", "title": "PriorityQueue: draining yields a sorted permutation", "statement": "Popping a priority queue until empty returns exactly the elements it contained, in non-decreasing order, after exactly Len pops.", "quantifier": "every strict weak order, every initial slice and every history before the drain", "why_tests_cant": "needs all lengths and all orders, including ties and duplicates", "anchors": ["common/container/pqueue/pqueue.go:Pop", "common/container/heap/heap.go:Pop"]}
{"id": "C04", "title": "HeapN: n-ary heap keeps priority order for every arity", "statement": "For every arity n >= 2 accepted by NewN, Pop returns a minimum of the present elements after every sequence of Push, Pop, Remove and Fix.", "quantifier": "every n >= 2, every strict weak order, every operation sequence", "why_tests_cant": "the arity is a run-time parameter and wrong child scanning only shows for particular arities and shapes", "anchors": ["common/container/heap/heapn.go:NewN,Pop,Push,Remove,Fix,down"]}
{"id": "C05", "title": "Meap behaves like a map", "statement": "After any sequence of Push(k,v), Pop, Remove(k), Get(k) and Contains(k) see exactly the latest value pushed for k since k was last removed or popped; other keys are never disturbed; Len is the number of distinct keys.", "quantifier": "every key and value type, every less function, every operation sequence", "why_tests_cant": "the index map must stay consistent with the heap array across every swap of every history", "anchors": ["common/container/meap/maep.go:Push,Get,Contains,Remove,Pop,Len"]}
{"id": "C06", "title": "Meap Pop/Peek return a minimal entry", "statement": "Peek and Pop return an entry currently in the meap that no other entry is less than, also after values were updated in place by Push on an existing key; Pop removes exactly that key. They panic exactly when the meap is empty.", "quantifier": "every strict weak order on entries, every operation sequence", "why_tests_cant": "in-place updates may move an entry up or down; all shapes must be covered", "anchors": ["common/container/meap/maep.go:Pop,Peek,Push"]}
{"id": "C07", "title": "Reap: handles remove or update exactly their own element", "statement": "For a handle returned by Push on this reap: Remove returns true and deletes exactly that element iff it is still present, otherwise returns false and changes nothing; SetValue likewise changes exactly that element's value; no other handle is affected.", "quantifier": "every element type, less function and history of Push, Pop, Remove and SetValue, including repeated use of dead handles", "why_tests_cant": "each entry's stored index must be right after every swap in every history", "anchors": ["common/container/reap/reap.go:Push,Remove,SetValue,Pop"]}
{"id": "C08", "title": "Reap Pop/Peek return a minimum", "statement": "Pop and Peek return the value of a live element that no other live value is less than, after any sequence of Push, Remove, SetValue and Pop; they panic exactly when empty.", "quantifier": "every strict weak order, every history", "why_tests_cant": "depends on the whole history of heap repairs", "anchors": ["common/container/reap/reap.go:Pop,Peek"]}
{"id": "C09", "title": "Reap rejects handles of another reap", "statement": "Passing to Remove or SetValue a handle that belongs to a different reap never removes or changes an element of this reap.", "quantifier": "every pair of reaps and every foreign handle", "why_tests_cant": "one must consider every combination of states of two heaps", "anchors": ["common/container/reap/reap.go:Remove,SetValue"]}
{"id": "C10", "title": "List behaves as a sequence with stable element handles", "statement": "Under any sequence of PushFront, PushBack, InsertBefore/After, MoveToFront/Back, MoveBefore/After, Remove, RemoveFront/Back, PushBackList and PushFrontList on any number of lists, each list is exactly the sequence those operations prescribe; Front/Back/Next/Prev walk it in order in both directions and Len is its length; handles not in the list leave it unmodified.", "quantifier": "every number of lists, every history, every handle ever returned (including removed ones and ones of other lists)", "why_tests_cant": "pointer surgery must be right in every aliasing situation (neighbours, ends, self-copy)", "anchors": ["common/container/list/list.go"]}
{"id": "C11", "title": "List: Clear really forgets its elements and the zero value is usable", "statement": "After Clear, handles obtained earlier no longer affect the list; a zero List is an empty list ready to use, as documented.", "quantifier": "every history before and after Clear, every stale handle; every operation on a zero List", "why_tests_cant": "stale handles used after Clear are a history property", "anchors": ["common/container/list/list.go:Clear,Remove,PushBack,PushFront"]}
{"id": "C12", "title": "Deque is a double-ended queue", "statement": "Under any sequence of PushFront, PushBack, PopFront and PopBack a deque behaves as a sequence; pops panic exactly when it is empty; Len and Empty are right.", "quantifier": "every operation sequence and element type", "why_tests_cant": "must hold for all interleavings of operations at both ends", "anchors": ["common/container/deque/deque.go"]}
{"id": "C13", "title": "Stack is last-in first-out", "statement": "Under any sequence of Push, Pop and Peek, Pop and Peek return the most recently pushed element not yet popped, and panic exactly when the stack is empty.", "quantifier": "every operation sequence and element type", "why_tests_cant": "must hold for all histories", "anchors": ["common/container/stack/stack.go"]}
{"id": "C14", "title": "Set is a mathematical set", "statement": "Contains(x) is true iff the last Add/Remove of x was Add; Len is the number of distinct members; other members are unaffected.", "quantifier": "every operation sequence and comparable element type", "why_tests_cant": "must hold for all histories", "anchors": ["common/container/set/set.go"]}
{"id": "C15", "title": "fix.Ring is a bounded FIFO queue of the requested capacity", "statement": "For any size New accepts, under any sequence of Push, MPush, Pop, MPop, MPopCopy, Peek and Reset the ring delivers elements in push order without loss or duplication; Push panics exactly when full, Pop/Peek exactly when empty; MPush accepts exactly the prefix that fits; Len/Avail/Empty/Full are right.", "quantifier": "every size, every operation sequence of any length, including index counter wrap-around at 2^64", "why_tests_cant": "wrap positions, partial copies and counter wrap-around cannot be enumerated", "anchors": ["common/container/ringbuffer/fix/fix.go"]}
{"id": "C16", "title": "round.Ring is a bounded FIFO queue for every history, including counter wrap-around", "statement": "A ring returned by New behaves as a bounded FIFO queue of capacity Cap() under any operation sequence of any length, including after the 64-bit counters wrap.", "quantifier": "every requested size, every operation sequence of any length", "why_tests_cant": "2^64 operations cannot be tested", "anchors": ["common/container/ringbuffer/round/roud.go"]}
{"id": "C17", "title": "round.New gives the least power of two not below the requested size, or panics", "statement": "For every requested size New either panics (size 0 or too large) or returns a ring whose capacity is the least power of two >= size.", "quantifier": "every uint64 size", "why_tests_cant": "the whole uint64 range must be covered", "anchors": ["common/container/ringbuffer/round/roud.go:New", "common/math/math.go:RoundUpPowOf2"]}
{"id": "C18", "title": "unbounded.Ring is an unbounded FIFO queue", "statement": "For any initial size (including 0) and any sequence of Push, MPush, Pop, MPop, MPopCopy, Peek, Grow and Reset, elements come out in push order without loss or duplication and no operation but Pop/Peek on empty or exceeding the maximum size panics.", "quantifier": "every initial size and every operation sequence", "why_tests_cant": "growth can happen at any rotation of the buffer", "anchors": ["common/container/ringbuffer/unbounded/unbounded.go"]}
{"id": "C19", "title": "fix/round rings are safe with one producer and one consumer", "statement": "With one goroutine only pushing and another only popping, every schedule makes the consumer receive exactly a prefix of the pushed sequence, as the doc comment promises.", "quantifier": "every interleaving of one producer and one consumer, every size, every workload", "why_tests_cant": "tests see few schedules; the faulty window is a few instructions wide", "anchors": ["common/container/ringbuffer/fix/fix.go:Push,Pop,MPush,MPop", "common/container/ringbuffer/round/roud.go:Push,Pop,MPush,MPop"]}
{"id": "C20", "title": "Power-of-two helpers are exact for every unsigned width", "statement": "For every unsigned type: IsPowOf2(n) iff n is a power of two; FindLastBitSet(n) is the bit length; RoundUpPowOf2(n) is the least power of two >= n and RoundDownPowOf2(n) the greatest <= n, for all n where such a value is representable.", "quantifier": "every width and every value of the type", "why_tests_cant": "2^64 values", "anchors": ["common/math/math.go:IsPowOf2,RoundUpPowOf2,RoundDownPowOf2,FindLastBitSet"]}
{"id": "C21", "title": "Split divides n into m parts", "statement": "Split(n,m) returns a part size and a last part size such that m-1 parts of the former plus one of the latter make n exactly.", "quantifier": "every pair of uint values with m > 0", "why_tests_cant": "2^128 input pairs", "anchors": ["common/math/math.go:Split"]}
{"id": "C22", "title": "Min, Max and Abs are correct for every value", "statement": "Min/Max return the lesser/greater of their arguments and Abs a non-negative value of equal magnitude, for every value of a signed integer type.", "quantifier": "every signed width and every value", "why_tests_cant": "2^64 values", "anchors": ["common/math/math.go:Min,Max,Abs"]}
{"id": "C23", "title": "Bloom filter has no false negatives", "statement": "Once Add(h), AddBytes(b) or AddString(s) was called and no Clear followed, the corresponding Contains* returns true, whatever else was added before or after; adding never makes a Contains* answer go from true to false; after Clear a filter with at least one hash function contains nothing.", "quantifier": "every filter geometry New can build, every set of seeds, every history", "why_tests_cant": "random seeds and unbounded histories", "anchors": ["common/filter/bloom/bloom.go:Add,AddBytes,AddString,Contains,ContainsBytes,ContainsString,Clear"]}
{"id": "C24", "title": "Bloom filter answers are exactly determined by the set bits and independent of insertion order", "statement": "Contains(h) is true iff each of h's probe positions coincides with a probe position of some element added since the last Clear; the order and multiplicity of Adds do not matter.", "quantifier": "every geometry, seeds and history", "why_tests_cant": "all orders of all insertions", "anchors": ["common/filter/bloom/bloom.go:Add,Contains,pos"]}
{"id": "C25", "title": "Bloom filter probes with independent hash functions", "statement": "Using several seeds gives several independent probes: two different elements whose first probe collides do not automatically collide on all the others.", "quantifier": "every filter size New can produce", "why_tests_cant": "statistical tests with one size miss the degenerate sizes", "anchors": ["common/filter/bloom/bloom.go:pos,New"]}
{"id": "C26", "title": "Hash is a function of its input within one instance", "statement": "For one Hash instance Sum64(b) returns the same value for the same bytes whatever was hashed before, and Sum64String(s) = Sum64([]byte(s)).", "quantifier": "every byte string and every call history", "why_tests_cant": "all histories", "anchors": ["common/hash/hash.go"]}
{"id": "C27", "title": "FixedWindowLimiter never grants more than limit per window and at most 2*limit in any window-length interval", "statement": "Between two consecutive window starts at most limit acquisitions succeed, and any time interval of length <= window contains at most 2*limit successes.", "quantifier": "every limit, window, and every sequence of calls at any non-decreasing clock readings", "why_tests_cant": "all timings of requests", "anchors": ["common/limiter/fixed_window/fixed_window.go:TryAcquire"]}
{"id": "C28", "title": "FixedWindowLimiter refuses only when limit grants happened recently", "statement": "TryAcquire returns false only if limit (>0) requests have been granted in the current window; a call more than window after the last window start always succeeds.", "quantifier": "every limit > 0, window and call sequence", "why_tests_cant": "all timings", "anchors": ["common/limiter/fixed_window/fixed_window.go:TryAcquire"]}
{"id": "C29", "title": "LeakyBucketLimiter bounds bursts and long-run rate", "statement": "In any time interval the number of successes is at most peakLevel + velocity * (number of whole seconds that can have leaked during it); the level stays within 0..peakLevel; a refused call means the bucket is full.", "quantifier": "every peak, velocity and every sequence of calls at any non-decreasing clock readings, including very long idle times", "why_tests_cant": "all timings, and integer overflow only shows after extreme products", "anchors": ["common/limiter/leaky_bucket/leaky_bucket_limiter.go"]}
{"id": "C30", "title": "TokenBucketLimiter bounds bursts and long-run rate", "statement": "Tokens stay within 0..capacity and in any time interval the number of successes is at most capacity + rate * (whole seconds issued during it); a refused call means no token is left.", "quantifier": "every capacity, rate and every sequence of calls at any non-decreasing clock readings, including very long idle times", "why_tests_cant": "all timings, and integer overflow only shows after extreme products", "anchors": ["common/limiter/token_bucket/token_bucket.go"]}
{"id": "C31", "title": "SlidingWindowLimiter never grants more than limit in any sliding window", "statement": "Any time interval of length window contains at most limit successes.", "quantifier": "every limit, window, sub-window size accepted by the constructor and every non-decreasing call sequence", "why_tests_cant": "all positions of the interval relative to the sub-window grid", "anchors": ["common/limiter/sliding_window/sliding_window.go"]}
{"id": "C32", "title": "SlidingWindowLimiter is exact at sub-window granularity", "statement": "A call succeeds iff fewer than limit earlier successes fall into the last window/smallWindow sub-windows ending with the current one; hence any smallWindows consecutive sub-windows hold at most limit successes. Dropping old counters never changes an answer.", "quantifier": "every configuration with positive windows and every non-decreasing call sequence", "why_tests_cant": "all timings", "anchors": ["common/limiter/sliding_window/sliding_window.go:TryAcquire"]}
{"id": "C33", "title": "SlidingLogLimiter enforces every strategy at once and reports a violated one", "statement": "A call succeeds iff for every strategy fewer than its limit successes fall into its last window/smallWindow sub-windows; otherwise the returned error carries the limit and window of a strategy that is exhausted, the one with the largest window among those.", "quantifier": "every set of strategies accepted by the constructor, every non-decreasing call sequence", "why_tests_cant": "all strategy sets and timings", "anchors": ["common/limiter/sliding_log/sliding_log.go:TryAcquire"]}
{"id": "C34", "title": "NewSlidingLogLimiter accepts exactly the consistent strategy sets, in any order", "statement": "The constructor succeeds iff the list is non-empty, every window is a multiple of smallWindow and limits strictly decrease as windows decrease; the outcome does not depend on argument order, and the limiter is not affected by anything done later with the strategies passed in.", "quantifier": "every list of strategies in every order, every later use of the same strategy objects", "why_tests_cant": "all permutations and all later uses", "anchors": ["common/limiter/sliding_log/sliding_log.go:NewSlidingLogLimiter"]}
{"id": "C35", "title": "Mutex-protected objects are linearizable", "statement": "Concurrent TryAcquire calls on one limiter, and concurrent locked calls on one utils.Map, behave as if executed one at a time in some order consistent with real time; in particular the bounds above hold under concurrency.", "quantifier": "every number of goroutines and every interleaving", "why_tests_cant": "interleavings", "anchors": ["common/limiter/*/*.go:TryAcquire", "help/utils/maps.go:Map"]}
{"id": "C36", "title": "DelayQueue delivers each element once, never early, in expiration order", "statement": "Every element returned by Take or Pop was pushed, is returned at most once, is not returned before its expiration time, and has the least expiration among the elements then in the queue; nothing not returned is lost.", "quantifier": "every interleaving of any number of pushers and takers, every delay (also negative), every clock behaviour that is non-decreasing", "why_tests_cant": "schedules and timings", "anchors": ["common/timer/delayqueue/delayqueue.go:Push,Take,Pop,Peek"]}
{"id": "C37", "title": "DelayQueue: Push never blocks forever and a waiting Take notices earlier elements", "statement": "Push always completes; a Take that is waiting is woken when a new earliest element arrives and returns an element once it has expired.", "quantifier": "every schedule of pushers and takers, including cancelled Takes", "why_tests_cant": "the blocking window needs specific schedules", "anchors": ["common/timer/delayqueue/delayqueue.go:Push,Take"]}
{"id": "C38", "title": "DelayQueue supports several concurrent takers", "statement": "With several goroutines in Take, none of them blocks forever while an expired element is in the queue, and each returns when its context is cancelled.", "quantifier": "every number of takers and every schedule", "why_tests_cant": "needs specific schedules of two timers and a push", "anchors": ["common/timer/delayqueue/delayqueue.go:Take"]}
{"id": "C39", "title": "TimingWheel runs every AfterFunc task exactly once", "statement": "Every task passed to AfterFunc on a running wheel runs exactly once unless stopped first.", "quantifier": "every delay, tick, wheel size and history of calls and bucket expirations", "why_tests_cant": "delays interact with tick, wheel position and overflow levels", "anchors": ["common/timer/timingwheel/timing_wheel.go:AfterFunc,add,addOrRun,advance", "common/timer/timingwheel/bucket.go:flush"]}
{"id": "C40", "title": "TimingWheel never runs a task more than one tick early and runs it when its tick comes", "statement": "A task is started only when the clock has passed its expiration minus one tick; when the wheel has processed a bucket expiration at or after the task's own tick, the task has been started.", "quantifier": "every tick >= 1, wheelSize >= 2, every history, every number of overflow levels", "why_tests_cant": "unbounded levels and histories", "anchors": ["common/timer/timingwheel/timing_wheel.go:add,advance,Run", "common/timer/timingwheel/bucket.go:flush"]}
{"id": "C41", "title": "TimingWheel never runs a task before its expiration", "statement": "A task scheduled with delay d is never started earlier than d after the call.", "quantifier": "every delay, tick and wheel size", "why_tests_cant": "depends on the phase of the clock relative to the tick", "anchors": ["common/timer/timingwheel/timing_wheel.go:AfterFunc,add"]}
{"id": "C42", "title": "Timer.Stop prevents exactly its own timer", "statement": "Stop returns true iff the timer was pending, after which its task never runs; other timers are unaffected; a second Stop returns false.", "quantifier": "every history of AfterFunc, Stop and bucket expirations", "why_tests_cant": "timers move between buckets and levels", "anchors": ["common/timer/timingwheel/bucket.go:Stop,remove,flush"]}
{"id": "C43", "title": "Scheduling on a TimingWheel terminates", "statement": "AfterFunc and ScheduleFunc return for every positive tick and wheel size and every delay.", "quantifier": "every tick >= 1, wheelSize >= 1, delay", "why_tests_cant": "recursion over overflow levels is unbounded", "anchors": ["common/timer/timingwheel/timing_wheel.go:add,setOverflowWheel"]}
{"id": "C44", "title": "Cancelling TimingWheel.Run stops it cleanly", "statement": "After its context is cancelled Run returns without crashing.", "quantifier": "every schedule of the run loop, the queue goroutine and the cancellation", "why_tests_cant": "the crash needs a particular select choice", "anchors": ["common/timer/timingwheel/timing_wheel.go:Run", "common/timer/timingwheel/delayqueue.go:channel"]}
{"id": "C45", "title": "TimingWheel sleeps until the next bucket is due", "statement": "While no bucket is due the wheel's queue goroutine waits for the remaining time instead of polling.", "quantifier": "every pending expiration and clock value", "why_tests_cant": "functional tests pass although the loop spins", "anchors": ["common/timer/timingwheel/delayqueue.go:take"]}
{"id": "C46", "title": "AesDecrypt inverts AesEncrypt", "statement": "For every key of valid length and every data, AesDecrypt(AesEncrypt(data,key),key) = data; invalid key lengths give an error from both.", "quantifier": "every plaintext length and content, every key", "why_tests_cant": "all lengths modulo the block size and all contents, including data that looks like padding", "anchors": ["help/utils/md5.go:AesEncrypt,AesDecrypt,pkcs7Padding,pkcs7UnPadding"]}
{"id": "C47", "title": "AesDecrypt reports malformed input as an error", "statement": "AesDecrypt never panics: any byte string that is not the encryption of something yields an error.", "quantifier": "every input byte string and valid key", "why_tests_cant": "malformed paddings are a sparse set of inputs", "anchors": ["help/utils/md5.go:AesDecrypt,pkcs7UnPadding"]}
{"id": "C48", "title": "AesEncrypt does not modify the caller's memory", "statement": "AesEncrypt leaves every byte of the caller's buffers unchanged.", "quantifier": "every slice, including slices with spare capacity inside a larger buffer", "why_tests_cant": "tests rarely pass sub-slices with spare capacity", "anchors": ["help/utils/md5.go:AesEncrypt,pkcs7Padding"]}
{"id": "C49", "title": "Base64 helpers round-trip", "statement": "Base64Decode*(Base64Encode*(x)) = x for every byte string; the encoding has length 4*ceil(n/3) and uses only the standard alphabet and padding.", "quantifier": "every byte string", "why_tests_cant": "all lengths modulo 3 and all contents", "anchors": ["help/utils/base64.go"]}
{"id": "C50", "title": "Integer/string conversions round-trip and never fail", "statement": "StringToInt(IntToString(n)) = n and StringToInt64(Int64ToString(n)) = n for every int64; any text that is not a decimal integer gives 0 and out-of-range values give the nearest bound.", "quantifier": "every int64 and every string", "why_tests_cant": "2^64 values and all strings", "anchors": ["help/utils/ints.go", "help/utils/strings.go:StringToInt,StringToInt64"]}
{"id": "C51", "title": "utils.Map is a map, TestAndSet sets only once", "statement": "Get returns the last Set value, Del removes it, Len counts keys, the zero Map is usable; TestAndSet stores the value iff the key was absent and lets the caller know which case happened.", "quantifier": "every history and key/value", "why_tests_cant": "all histories, including nil values", "anchors": ["help/utils/maps.go:Map"]}
{"id": "C52", "title": "Option switches: unset means on; SetSwitchFromOptions is visible to GetSwitchFromOptions", "statement": "GetSwitchFromOptions is true iff the key is absent or true; after SetSwitchFromOptions(o,k,v), GetSwitchFromOptions(o,k) = v and other keys are unchanged.", "quantifier": "every option map (also nil), key and value", "why_tests_cant": "all maps", "anchors": ["help/utils/maps.go:GetSwitchFromOptions,SetSwitchFromOptions"]}
{"id": "C53", "title": "HideStar hides the middle of phone numbers, names and e-mail addresses", "statement": "The result for an 11-digit mobile number does not depend on digits 4-7; for a name not on its inner characters; for an e-mail address not on its local part beyond the first three characters.", "quantifier": "every string", "why_tests_cant": "noninterference ranges over pairs of inputs", "anchors": ["help/utils/strings.go:HideStar,Substr2"]}
{"id": "C54", "title": "MaskMobile/MaskIDCard/MaskBackCard mask the requested number of characters", "statement": "The result has the input's length, keeps the first characters (3, 5 or 4) and the tail, and shows none of the maskNumber characters in between.", "quantifier": "every string and maskNumber", "why_tests_cant": "all lengths, mask counts and encodings", "anchors": ["help/utils/strings.go:MaskMobile,MaskIDCard,MaskBackCard"]}
{"id": "C55", "title": "MaskCustomerName hides part of every name", "statement": "For names of at least two characters the result does not reveal the whole name; it never panics.", "quantifier": "every string (any encoding)", "why_tests_cant": "byte versus character counts differ only for some inputs", "anchors": ["help/utils/strings.go:MaskCustomerName"]}
{"id": "C56", "title": "BuildUrl joins parameters and yields a same-site path", "statement": "The result is the trimmed prefix followed by key/value for each complete pair whose key is non-empty and whose value is not 0, without trailing slash, and is a path on the same site.", "quantifier": "every prefix and parameter list of any length and parity", "why_tests_cant": "all parameter lists", "anchors": ["help/utils/url.go:BuildUrl"]}
{"id": "C57", "title": "IsSameSiteURLPath accepts exactly rooted paths that are not protocol-relative", "statement": "True iff the string starts with a slash followed by a character that is neither slash nor backslash.", "quantifier": "every string", "why_tests_cant": "all strings", "anchors": ["help/utils/files.go:IsSameSiteURLPath"]}
{"id": "C58", "title": "A path accepted by IsMaliciousPath stays below the base directory", "statement": "If IsMaliciousPath(p) is false, joining p to any base directory gives a path inside that base.", "quantifier": "every path and every base", "why_tests_cant": "all path strings", "anchors": ["help/utils/files.go:IsMaliciousPath"]}
{"id": "C59", "title": "Unzip writes only below the destination directory", "statement": "Every path Unzip creates or writes lies inside destDir, whatever the archive contains.", "quantifier": "every archive and destination", "why_tests_cant": "malicious names are a sparse set", "anchors": ["help/utils/zip.go:Unzip"]}
{"id": "C60", "title": "Chunked upload reassembles the original file", "statement": "If the n chunks of a file were stored by BreakPointContinue in any order, with any repetitions, MakeFile produces exactly their concatenation in number order; incomplete uploads are reported; repeating MakeFile gives the same file.", "quantifier": "every chunking, every upload order, retries, every crash point between calls", "why_tests_cant": "all orders, repetitions and missing subsets", "anchors": ["help/utils/breakpoint_continue.go"]}
{"id": "C61", "title": "CopyFile makes the destination equal to the source", "statement": "After a successful CopyFile the destination's content equals the source's and the returned count is its length.", "quantifier": "every pair of contents of source and pre-existing destination", "why_tests_cant": "depends on the previous destination content", "anchors": ["help/utils/files.go:CopyFile"]}
{"id": "C62", "title": "ScanDir lists exactly the files below a directory", "statement": "ScanDir returns each non-directory below the directory exactly once, at its path, in directory order, and fails if a directory cannot be read.", "quantifier": "every directory tree of any depth", "why_tests_cant": "all trees", "anchors": ["help/utils/files.go:ScanDir"]}
{"id": "C63", "title": "RandStr returns the requested number of characters of the requested kind", "statement": "For every random source the result has length size and consists of digits, lower-case, upper-case or mixed characters according to kind.", "quantifier": "every size >= 0, kind and random outcome", "why_tests_cant": "random outcomes", "anchors": ["help/utils/rand.go:RandStr"]}
{"id": "C64", "title": "GetSuffixName and IsImage look at the text after the last separator", "statement": "GetSuffixName returns what follows the last occurrence of the separator or the empty string; IsImage is true iff the file name has an image extension, case-insensitively.", "quantifier": "every string and separator", "why_tests_cant": "all strings", "anchors": ["help/utils/files.go:GetSuffixName,IsImage"]}
{"id": "C65", "title": "UpperFirst, FormatByte and WriteCsv use their argument", "statement": "UpperFirst upper-cases the first letter, FormatByte renders the given size, WriteCsv appends the given row.", "quantifier": "every argument", "why_tests_cant": "all arguments", "anchors": ["help/utils/strings.go:UpperFirst", "help/utils/files.go:FormatByte", "help/utils/csv.go:WriteCsv"]}
{"id": "C66", "title": "Round rounds to the nearest", "statement": "Round(f,n) is the multiple of 10^-n nearest to f.", "quantifier": "every float and precision", "why_tests_cant": "all floats", "anchors": ["help/utils/math.go:Round"]}
{"id": "C67", "title": "SplitInsertTableRecords inserts every record once, in order, in batches that fit", "statement": "On success the executed insert statements contain every record exactly once in order, and no statement carries more than 65000 values; it terminates; on failure exactly the records of the earlier batches have been sent.", "quantifier": "every list of records, every number of fields, every batch failing", "why_tests_cant": "all lengths around multiples of the batch size and every failure point", "anchors": ["gorm_tools/gorm.go:SplitInsertTableRecords,BatchInsertTableRecords"]}
{"id": "C68", "title": "BatchInsertTableRecords stores every field of every record under its own column", "statement": "Each inserted row holds exactly the fields and values of its record, whatever the map iteration order.", "quantifier": "every list of records (also with differing field sets) and every iteration order", "why_tests_cant": "map iteration order is random and field sets may differ", "anchors": ["gorm_tools/gorm.go:BatchInsertTableRecords,dumpStructToMapForInsert"]}
{"id": "C69", "title": "SplitUpdateTableFieldWithoutVersionByID covers every id exactly once in batches of at most 500", "statement": "For any iteration order the batches passed on are disjoint, non-empty, of size at most 500, and their union is the whole map.", "quantifier": "every map and iteration order", "why_tests_cant": "all sizes and iteration orders", "anchors": ["gorm_tools/update.go:SplitUpdateTableFieldWithoutVersionByID"]}
{"id": "C70", "title": "BatchUpdateTableFieldWithoutVersionByID sets exactly the given fields of exactly the given rows", "statement": "On success each row whose id is in the map gets exactly the values given for it and all other rows and columns are unchanged; maps with differing field sets are rejected.", "quantifier": "every update map, table content and iteration orders", "why_tests_cant": "iteration order differs between the loops; all maps", "anchors": ["gorm_tools/update.go:BatchUpdateTableFieldWithoutVersionByID"]}
{"id": "C71", "title": "TimingWheel: a periodic timer is pending at most once and ends with Stop", "statement": "A timer made by ScheduleFunc is never pending twice, is started at most once per time the scheduler returns, and after Stop its task is not started again.", "quantifier": "every scheduler, tick, wheel size and interleaving of Stop with the run loop and with the task's own rescheduling", "why_tests_cant": "the rescheduling runs in the task's goroutine; the window between start and reschedule is not hit by tests", "anchors": ["common/timer/timingwheel/timing_wheel.go:ScheduleFunc,addOrRun", "common/timer/timingwheel/bucket.go:Stop"]}
{"id": "C72", "title": "TimingWheel keeps an exact account of its timers in every interleaving", "statement": "However the atomic accesses, mutex and channel operations of concurrent AfterFunc, ScheduleFunc, Stop and Run calls interleave, every submission ends at most once (started, dropped or stopped) and is pending otherwise; a one-shot timer is submitted once; a bucket nobody has locked holds exactly the timers pointing to it, each once, and every timer in a bucket belongs to that slot of that wheel; the bucket of a waiting timer is in the queue, in a channel or in the hands of a goroutine that passes it on; no two goroutines are inside the same mutex.", "quantifier": "every tick, wheel size, number of goroutines, number of Runs, cancellation and interleaving of single shared accesses", "why_tests_cant": "needs every interleaving of single memory accesses of any number of goroutines", "anchors": ["common/timer/timingwheel/timing_wheel.go:add,addOrRun,Run,advance", "common/timer/timingwheel/bucket.go:add,remove,flush", "common/timer/timingwheel/delayqueue.go:push,take"]}
{"id": "C73", "title": "A successful Stop is final and touches only its own timer, in every interleaving", "statement": "Of all Stop calls for one timer at most one returns true; afterwards the timer is never pending and never started again (a one-shot timer was never started); a removal is reported by a call that returned true or is about to; no step of Stop changes where another timer is or what happened to it.", "quantifier": "every interleaving of single shared accesses, any number of concurrent Stop calls, flushes and additions", "why_tests_cant": "the races between Stop, flush and re-adding are hit only by particular schedules", "anchors": ["common/timer/timingwheel/bucket.go:Stop,remove,flush", "common/timer/timingwheel/timing_wheel.go:ScheduleFunc,addOrRun"]}
{"id": "C74", "title": "No goroutine of a TimingWheel waits for ever inside a call", "statement": "AfterFunc, ScheduleFunc and Stop return; Run never blocks inside the handling of a bucket and returns after its context is cancelled.", "quantifier": "every interleaving of single shared accesses, with and without cancellation", "why_tests_cant": "deadlocks need particular schedules of three or more goroutines", "anchors": ["common/timer/timingwheel/timing_wheel.go:add,Run", "common/timer/timingwheel/bucket.go:add,flush", "common/timer/timingwheel/delayqueue.go:push,take,channel"]}
{"id": "C75", "title": "AesEncrypt does not give the key or equal prefixes away", "statement": "Decrypting a ciphertext modified in transit reveals nothing about the key, and ciphertexts of two texts do not show whether the texts begin alike.", "quantifier": "every key, every pair of texts", "why_tests_cant": "a test of one round trip sees neither; the leak needs a modified ciphertext or two related texts", "anchors": ["help/utils/md5.go:AesEncrypt,AesDecrypt"]}
{"id": "C76", "title": "The MD5 helpers compute MD5", "statement": "Md5Crypt, Md5, MD5V without extra bytes, ComputeFileMD5 and FileMd5 return the 32 lower-case hexadecimal digits of the RFC 1321 digest of the content, however a reader cuts it.", "quantifier": "every content of every length, every sequence of read results", "why_tests_cant": "all lengths modulo the block size and all ways to cut the content", "anchors": ["help/utils/md5.go:Md5Crypt,Md5,ComputeFileMD5", "help/utils/files.go:FileMd5", "help/utils/breakpoint_continue.go:MD5V"]}
{"id": "C77", "title": "No digest is reported for content that could not be read", "statement": "FileMd5 and ComputeFileMD5 return a digest only if the whole content was read.", "quantifier": "every file and reader, including read errors at any point", "why_tests_cant": "tests do not inject read errors", "anchors": ["help/utils/files.go:FileMd5", "help/utils/md5.go:ComputeFileMD5"]}
{"id": "C78", "title": "MD5V hashes its extra bytes and CheckMd5 compares digests", "statement": "MD5V(str, b...) is a 32-digit digest that depends on b and leaves the caller's memory unchanged; CheckMd5 accepts a chunk iff its digest is the given one, in either case of the digits.", "quantifier": "every content, every extra bytes, every claimed digest", "why_tests_cant": "tests call MD5V without extra bytes only, and CheckMd5 with its own output", "anchors": ["help/utils/breakpoint_continue.go:MD5V,CheckMd5"]}
{"id": "C79", "title": "ReadCsv returns exactly the table the file denotes", "statement": "ReadCsv returns a table iff the text of the file denotes it (quoted and plain fields, LF or CR LF, blank lines ignored, all rows equally long) and nil iff there is none; a table written with csv.Writer is read back.", "quantifier": "every byte string, every table", "why_tests_cant": "quoting, line ends, blank lines and widths combine in unboundedly many ways", "anchors": ["help/utils/csv.go:ReadCsv"]}
{"id": "C80", "title": "A row appended with WriteCsv is read back with ReadCsv", "statement": "After WriteCsv(path, content), ReadCsv(path) returns the rows it returned before followed by content.", "quantifier": "every earlier content of the file, every row", "why_tests_cant": "needs files whose last line is not ended or whose width differs", "anchors": ["help/utils/csv.go:ReadCsv,WriteCsv"]}
{"id": "C81", "title": "The existence tests tell what is at a path", "statement": "IsDir is true iff a directory is at the path; IsFile iff a file is; FileExist and FileIsExisted iff something (not a directory, for FileExist) is; PathExists tells directory, other, or nothing.", "quantifier": "every file tree with symbolic links, every path, working directory and unsearchable directories", "why_tests_cant": "paths through files, dangling and cyclic links, dots and slashes combine in unboundedly many ways", "anchors": ["help/utils/files.go:PathExists,FileExist,IsDir,IsFile,FileIsExisted"]}
{"id": "C82", "title": "CreateDir and MkDir create the directories and change nothing else", "statement": "They return; on success every given path is a directory; all that existed is unchanged and all that is new is a directory; on an error nothing was created.", "quantifier": "every tree, every list of paths", "why_tests_cant": "needs links and files at every depth", "anchors": ["help/utils/files.go:CreateDir,MkDir"]}
{"id": "C83", "title": "FileMove moves", "statement": "If FileMove(src, dst) returns nil then what was at src is at dst, nothing is at src and the rest is unchanged except for new parent directories; if it returns an error nothing changed.", "quantifier": "every tree, every pair of paths", "why_tests_cant": "a destination below the source, links on the way and failing renames are rare in tests", "anchors": ["help/utils/files.go:FileMove"]}
{"id": "C84", "title": "DeLFile removes exactly what is at the path", "statement": "DeLFile(path) removes what the path denotes and everything below it, does not follow links, removes nothing else, and removes nothing if it reports an error.", "quantifier": "every tree, every path", "why_tests_cant": "paths with dots and trailing slashes", "anchors": ["help/utils/files.go:DeLFile"]}
{"id": "C85", "title": "JsonStringToMap returns what the text says, or nil", "statement": "For every text, JsonStringToMap returns the map of the members of the JSON object the text denotes (the last of members with the same name, names with their escapes resolved) if all values are integers of 32 bits, and nil for any text that is not such an object.", "quantifier": "every byte string: every white space, escape, number form, nesting, duplicate names, malformed text", "why_tests_cant": "the error of Unmarshal is dropped, so only the value could tell malformed or ill-typed text from a good one; tests try a few good texts", "anchors": ["help/utils/maps.go:JsonStringToMap"]}
{"id": "C86", "title": "JsonStringToMap undoes MapIntToJsonString", "statement": "For every map m, nil included, JsonStringToMap(MapIntToJsonString(m)) equals m.", "quantifier": "every map from strings (any bytes) to int32 and every iteration order", "why_tests_cant": "keys with quotes, control characters, HTML characters, U+2028, surrogates or invalid UTF-8 take different paths in the encoder and the decoder", "anchors": ["help/utils/maps.go:MapIntToJsonString,JsonStringToMap"]}
{"id": "C87", "title": "MapToJsonString and Map2JsonString return a JSON text of their argument", "statement": "For every value, nested to any depth, the result is a JSON text that denotes it, with the members of maps in the order of their keys; it is a single line without the characters <, > and &.", "quantifier": "every tree of nil, booleans, integers, strings, slices and maps, and values that JSON has no form for", "why_tests_cant": "the error of Marshal is dropped; one value deep inside can make the whole result empty", "anchors": ["help/utils/maps.go:MapToJsonString,Map2JsonString"]}
{"id": "C88", "title": "IsPDFFile and IsImageFile go by the magic numbers, and no data is of two kinds", "statement": "IsPDFFile is true exactly of data that begins with %PDF-, IsImageFile exactly of data with the signature of an icon, BMP, GIF, WebP, PNG or JPEG file; at most one of IsTextFile, IsImageFile, IsPDFFile and IsVideoFile is true; all four depend on the first 512 bytes only.", "quantifier": "every byte string", "why_tests_cant": "more than 50 ordered signatures with masks, skipped white space and a 512-byte limit interact", "anchors": ["help/utils/files.go:IsTextFile,IsImageFile,IsPDFFile,IsVideoFile"]}
{"id": "C89", "title": "IsTextFile is true exactly of text", "statement": "IsTextFile(data) is true iff no byte of data is a control character that text does not contain.", "quantifier": "every byte string", "why_tests_cant": "data that looks like a format by chance, and bytes behind the 512th, are rare in tests", "anchors": ["help/utils/files.go:IsTextFile"]}
{"id": "C90", "title": "IsVideoFile recognises AVI, WebM and MP4", "statement": "IsVideoFile(data) is true iff the first 512 bytes are those of an AVI, WebM or MP4 file (a first box of type ftyp inside the data with a brand that begins with mp4).", "quantifier": "every byte string", "why_tests_cant": "depends on the length of the first box and the order of the table", "anchors": ["help/utils/files.go:IsVideoFile"]}
{"id": "C91", "title": "GetTimeDir is the local calendar day", "statement": "GetTimeDir returns year/month/day of the local day in the Gregorian calendar, the year with at least four digits, month and day with two.", "quantifier": "every second within 146 billion years of 1970, before and after, and every zone offset", "why_tests_cant": "leap years, centuries and ends of months are sampled at best; the date algorithm works on a 400-year cycle of 146097 days", "anchors": ["help/utils/times.go:GetTimeDir"]}
{"id": "C92", "title": "GetTimeDir gives one directory per day, ordered like time", "statement": "Two calls return the same directory iff they fall on the same local day; for days of the years 0 to 9999 the string order of the directories is the order of the days.", "quantifier": "every pair of times and zone offsets", "why_tests_cant": "a statement about all pairs of times", "anchors": ["help/utils/times.go:GetTimeDir"]}
{"id": "C93", "title": "BreakPointContinue writes the chunk of its upload and nothing else", "statement": "BreakPointContinue(data, file, n, total, md5) creates ./breakpointDir/md5 and writes data to file_n in it; no other file changes, and different (md5, file, n) never share a place.", "quantifier": "every file tree with links, all names, numbers, data and write failures", "why_tests_cant": "depends on '..', slashes and links in the names and the tree", "anchors": ["help/utils/breakpoint_continue.go:BreakPointContinue,makeFileContent"]}
{"id": "C94", "title": "MakeFile changes ./fileDir/file only", "statement": "MakeFile(file, md5) appends the chunks to file in ./fileDir, creates that directory if needed and changes nothing else; after a failed write the file is removed and the failure reported.", "quantifier": "every file tree, all names, every failing write", "why_tests_cant": "depends on names, the tree and the place of the failure", "anchors": ["help/utils/breakpoint_continue.go:MakeFile"]}
{"id": "C95", "title": "RemoveChunk removes the chunks of one upload", "statement": "RemoveChunk(md5) removes ./breakpointDir/md5 with everything in it and nothing else.", "quantifier": "every file tree and every name", "why_tests_cant": "the dangerous names are special cases of the path resolution", "anchors": ["help/utils/breakpoint_continue.go:RemoveChunk"]}
{"id": "C96", "title": "A whole upload appends the data to one file", "statement": "For plain names, uploading n chunks in any order with cut-off and repeated ones in between (the last of each number complete), then MakeFile, then RemoveChunk, appends exactly the concatenation to ./fileDir/file, removes the chunks and leaves everything else as it was.", "quantifier": "every tree, every number of chunks, every order and repetition, all data", "why_tests_cant": "all orders, repetitions and trees", "anchors": ["help/utils/breakpoint_continue.go"]}
{"id": "C97", "title": "ZipFiles puts exactly the listed files into the archive", "statement": "ZipFiles(filename, files, old, new) leaves in filename an archive of the files' data under their paths with old replaced by new, changes nothing else, and returns nil exactly when it did; after an error the old archive is still there.", "quantifier": "every file tree, every list of paths, every pair of replaced strings, every failing write", "why_tests_cant": "path resolution, replacement and the failures of every single step combine", "anchors": ["help/utils/zip.go:ZipFiles"]}
{"id": "C98", "title": "Unzip undoes ZipFiles", "statement": "Unzip of an archive made by ZipFiles puts every file's data at the destination under its name in the archive and changes nothing else but for new directories on the way; in general Unzip extracts every entry of an archive to its place.", "quantifier": "every file tree, every list of files, every archive and destination", "why_tests_cant": "all combinations of names, directories and what is already there", "anchors": ["help/utils/zip.go:Unzip", "help/utils/zip.go:ZipFiles"]}
{"id": "C99", "title": "Unzip changes nothing outside the destination", "statement": "Whatever the archive and whatever fails, Unzip changes only what is at the destination or below, and creates directories on the way to it.", "quantifier": "every file tree with links, every archive, every destination, every failing call", "why_tests_cant": "hostile names and links that happen to be there", "anchors": ["help/utils/zip.go:Unzip"]}
{"id": "C100", "title": "Log2 of an integer is the integer part of its logarithm", "statement": "For every positive integer of the type, Log2(a) is the l with 2^l <= a < 2^(l+1); for a float that is a power of two it is the exponent.", "quantifier": "every positive integer up to 64 bits, every logarithm function with an error below one unit in the last place", "why_tests_cant": "the wrong values are a few just below large powers of two", "anchors": ["common/math/math.go:Log2"]}
{"id": "C101", "title": "RLockRange, LockRange and all other calls of a Map return", "statement": "Whatever goroutines share a Map and whatever their callbacks do with it, every call returns (or passes on its callback's panic), the mutex is free when all have, and no access to the map races with a write.", "quantifier": "every number of goroutines, every sequence of calls, every callback, every interleaving, every order of iteration", "why_tests_cant": "the deadlock needs a writer that arrives between two read locks of one goroutine", "anchors": ["help/utils/maps.go:RLockRange,LockRange,UnsafeRange,Get,Set,TestAndSet,Del,Len"]}
{"id": "C102", "title": "A range passes every entry of one state of the Map exactly once", "statement": "With other goroutines calling anything, a range whose callback only reads passes each entry of the map as it is during the whole call exactly once; a LockRange whose callback deletes the entries of a kind as it meets them passes each entry once and leaves exactly the others.", "quantifier": "every number of goroutines, every sequence of calls, every interleaving, every order of iteration", "why_tests_cant": "a torn iteration needs a rare schedule", "anchors": ["help/utils/maps.go:RLockRange,LockRange,UnsafeRange,UnsafeDel"]}
{"id": "C103", "title": "Updates and deletions by id touch exactly the listed rows", "statement": "DelByTableNameAndId removes exactly the rows with a listed id; UpdateByTableNameAndId and UpdateByTableNameAndIds set exactly the given columns to the given values in exactly those rows; one statement is sent, none if there is nothing to set, and the database's error is returned.", "quantifier": "every list of ids, every set of columns and values, every row, every answer of the database", "why_tests_cant": "an empty list or a repeated id must neither select everything nor be rejected", "anchors": ["gorm_tools/gorm.go:DelByTableNameAndId,UpdateByTableNameAndId,UpdateByTableNameAndIds"]}
{"id": "C104", "title": "UpdateByTableNameAndWhere changes exactly the rows that agree with the conditions", "statement": "A row agrees if each column named in the conditions holds the given value or one of the given slice; those rows get the given values and no other row changes; without conditions nothing is sent and an error returned.", "quantifier": "every map of conditions, every map of updates, every row, every answer of the database", "why_tests_cant": "NULL compares unlike any other value, alone, in a slice, and as the empty slice", "anchors": ["gorm_tools/gorm.go:UpdateByTableNameAndWhere"]}
{"id": "C105", "title": "SoftDelByTableNameAndId marks a row as deleted, once", "statement": "SoftDelByTableNameAndId sets updated_at and deleted_at of exactly the row with that id, and a row that is deleted already keeps its time of deletion.", "quantifier": "every id, every pair of clock readings, every row, every answer of the database", "why_tests_cant": "the second deletion of a row is rarely tried", "anchors": ["gorm_tools/gorm.go:SoftDelByTableNameAndId"]}
{"id": "C106", "title": "A new Bloom filter is as large as its capacity and rate require", "statement": "New(n, p) makes a filter of zeroes whose number of bits is n ln(1/p)/(ln 2)^2 rounded up to whole words, with m/n ln 2 hash functions, rounded up, so that the usual estimate (1-e^(-kn/m))^k of the rate of false positives with n elements is at most p; parameters without meaning are rejected.", "quantifier": "every capacity, every rate, every logarithm with an error below one unit in the last place, every random source", "why_tests_cant": "floating-point rounding decides the number of hash functions at the edges, and unusual rates are never tried", "anchors": ["common/filter/bloom/bloom.go:New"]}
{"id": "C107", "title": "FileSize writes the size, to half a unit of the last digit", "statement": "FileSize(s) returns without a panic a decimal number, a space and a unit (B, KB, ... EB, powers of 1024); the number has two digits at least, one after the point or none, and times the unit differs from s by at most half a unit of its last digit; below 10 bytes it is s exactly.", "quantifier": "every size, every logarithm with an error below one unit in the last place", "why_tests_cant": "rounded logarithms can pick the wrong unit next to the powers of 1024, and the wrong index would panic", "anchors": ["help/utils/files.go:FileSize,humanateBytes,logn"]}
{"id": "C108", "title": "FileSize uses the unit that belongs to the size", "statement": "The unit of FileSize(s) is the largest that is not above s, so that the number is below 1024; a negative size is not shown as a large one.", "quantifier": "every int64, every logarithm with an error below one unit in the last place", "why_tests_cant": "only sizes just below a power of 1024 and negative sizes show it", "anchors": ["help/utils/files.go:FileSize,humanateBytes,logn"]}
{"id": "C109", "title": "ImageFileToBase64 gives a data URL of the file", "statement": "For a path that leads to a file the result is a data URL whose base64 part decodes to exactly the file's bytes and whose media type is that of the content; for every other path it is empty.", "quantifier": "every file tree, every path, every content", "why_tests_cant": "links, directories and other image formats than PNG are rarely tried", "anchors": ["help/utils/files.go:ImageFileToBase64"]}
{"id": "C110", "title": "GetCurrentDir returns the directory of the running program", "statement": "GetCurrentDir returns the absolute path of the directory that holds the program, whichever way it was called.", "quantifier": "every file tree, working directory and os.Args", "why_tests_cant": "tests run the program by one path only", "anchors": ["help/utils/runtime.go:GetCurrentDir"]}
{"id": "C111", "title": "Reload sends one hangup signal, to the parent process only", "statement": "Reload delivers SIGHUP to the parent process exactly once and to no other process; on Windows it returns an error and does nothing.", "quantifier": "every set of processes", "why_tests_cant": "namespaces in which the parent is not visible are not used in tests", "anchors": ["help/utils/sys.go:Reload"]}
{"id": "C112", "title": "ShellExec returns the output of the commands, or an error that tells what failed", "statement": "The result is the standard output of the given commands and nothing else; if a command fails the error carries what was written to the error output, and is not empty.", "quantifier": "every script of commands, with any outputs, error outputs and statuses", "why_tests_cant": "commands that read their input and failures in the middle of a script are rarely tried", "anchors": ["help/utils/cmd.go:ShellExec"]}
{"id": "C113", "title": "InsertToTable adds exactly the given records", "statement": "InsertToTable sends one statement that adds one row per given map, each holding exactly the map's fields and the table's defaults elsewhere; an error of the database is returned.", "quantifier": "every map and every slice of maps with names without dots and back quotes, every iteration order and every table default", "why_tests_cant": "records with different fields, or without any, are rarely inserted together", "anchors": ["gorm_tools/gorm.go:InsertToTable"]}
{"id": "C114", "title": "An archive made by ZipFiles is read back file by file", "statement": "Reading the bytes that ZipFiles' writer makes of a list of files gives for each file, in order, its name and either a directory or exactly its content; with these formats ZipFiles and Unzip together restore every file. The bytes have the layout of the zip format (APPNOTE.TXT).", "quantifier": "every list of files with names below 65536 bytes without zero bytes, of any sizes and number below 2^62, zip64 records included, every compressor whose output stands for the content by RFC 1951", "why_tests_cant": "sizes and counts at the limits of 16 and 32 bits and a directory of exactly 65535 bytes are never tried", "anchors": ["help/utils/zip.go:ZipFiles,Unzip"]}
{"id": "C115", "title": "What Unzip takes from an archive has the checksum of the archive", "statement": "A content that Unzip extracts without an error has the length and the CRC-32 of its header; so a file of an archive by ZipFiles in which up to four neighbouring bytes of the content changed is never extracted without an error.", "quantifier": "every sequence of bytes as archive, every decompressor", "why_tests_cant": "damage and hostile headers have to hit the one combination that is not checked", "anchors": ["help/utils/zip.go:Unzip"]}
{"id": "C116", "title": "Unzip can be given any file", "statement": "Reading any sequence of bytes as an archive ends without a panic, and with at most one entry for 46 bytes.", "quantifier": "every sequence of bytes, every decompressor", "why_tests_cant": "truncated and overlapping records in all combinations cannot be enumerated", "anchors": ["help/utils/zip.go:Unzip"]}
{"id": "C117", "title": "What Unzip extracts is in proportion to the archive", "statement": "There is a factor such that the files extracted from an archive are together no larger than the factor times the archive's size.", "quantifier": "every sequence of bytes, every decompressor with a bounded ratio", "why_tests_cant": "needs an archive whose headers overlap", "anchors": ["help/utils/zip.go:Unzip"]}
{"id": "C118", "title": "Unzip decompresses exactly what RFC 1951 defines", "statement": "The decompressor behind Unzip returns a content exactly if the given bytes begin with a compressed text that stands for it by RFC 1951, which is at most one content; it ends for every input, and the content is at most 1032 times as long.", "quantifier": "every sequence of bytes: blocks without compression, with fixed and with their own Huffman codes", "why_tests_cant": "the codes, lengths and distances of all blocks cannot be enumerated", "anchors": ["help/utils/zip.go:Unzip"]}
{"id": "C119", "title": "Unzip reads every archive that follows the zip format", "statement": "For every archive by the format of APPNOTE.TXT, stored or deflated, by any program and with comments, extra fields, descriptors and zip64 records, Unzip goes through the entries of its directory and gets the name, the kind and the content of each.", "quantifier": "every archive in the layout of the format, every place and order of its records", "why_tests_cant": "other programs use parts of the format that ZipFiles never writes, in any combination", "anchors": ["help/utils/zip.go:Unzip"]}
{"id": "C120", "title": "InsertToTable stores structs, one row for each", "statement": "InsertToTable for a struct, a pointer to one or a slice of them sends one statement that adds one row per struct, holding what is set in it, the present time in its time columns and the defaults elsewhere; an error is returned with nothing kept, and no transaction stays open.", "quantifier": "every struct type with its tags, every content, every table default and every answer of the database, in a transaction or not", "why_tests_cant": "tests pass pointers to new records with all fields set; by value, with zeros that are meant or with tags on the key the calls go elsewhere", "anchors": ["gorm_tools/gorm.go:InsertToTable,BaseModel"]}
{"id": "C121", "title": "InsertToTable gives structs the keys of their rows", "statement": "After InsertToTable each struct holds what its row holds, the key that the database generated included.", "quantifier": "every slice of structs with and without keys, every counter of the table", "why_tests_cant": "needs records with and without keys together, and a key above the counter", "anchors": ["gorm_tools/gorm.go:InsertToTable,BaseModel"]}
{"id": "C122", "title": "The compressor behind ZipFiles loses nothing of a file", "statement": "For each content the compressor that ZipFiles uses ends without a panic, and the literals and copies that it finds give back exactly the content, within the limits of RFC 1951; whatever codes they are then written with, decompressing returns the content.", "quantifier": "every content, every division into writes, every level, whatever an earlier file left in the buffer", "why_tests_cant": "the window slides and its hash table is rebased only for large files, and matches depend on all that came before", "anchors": ["help/utils/zip.go:ZipFiles"]}
{"id": "C123", "title": "What the compressor behind ZipFiles writes is what Unzip reads", "statement": "For each content the bytes that the compressor writes stand for the content by RFC 1951: the Huffman codes that it makes are the codes of RFC 1951 for the symbols that occur, none longer than allowed, the construction of length-limited codes ends without a panic, and what is written is decompressed to the content; so what ZipFiles packed Unzip unpacks with nothing assumed of the compressor.", "quantifier": "every content and division into writes, every level, all frequencies of the symbols of a block", "why_tests_cant": "codes are length-limited only for frequencies that grow like the Fibonacci numbers, and the choice of block format depends on all tokens", "anchors": ["help/utils/zip.go:ZipFiles", "help/utils/zip.go:Unzip"]}
