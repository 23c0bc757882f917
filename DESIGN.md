# Formal model of ahKevinXy/go-web-tools

The properties are in `properties.jsonl`, the theorems that settle each of them in
`MANIFEST.json`, the mutation experiments in `seeded/LOG.jsonl`.  The development is
Rocq/Coq 8.16.1 under `rocq/theories` (logical name `Verif`); `lean/` is not used.

## Layout

* `GoBase.v` – result type `go A := Ret a | Panic p | Diverge`, integer wrap-around, slice access.
* `GoStr.v` – byte strings, UTF-8 decoding as `range` and `[]rune` do it, the `strings` functions used.
* `<Area>Model.v` – executable model, one definition per Go function, each citing file and lines.
* `<Area>Spec.v` – the small independent specification the theorems are stated with.
* `<Area>Proofs.v`, `<Area>Inv.v` … – lemmas.
* `<Area>Props.v` – the theorems of the manifest, concrete non-trivial instances of their
  hypotheses, and `Print Assumptions` for each of them.

## Trusted base

1. The Coq 8.16.1 kernel (with its `vm_compute`).
2. Axioms.  `Print Assumptions` answers "Closed under the global context" for every theorem of the
   manifest except those of C66, C100 and C106–C108 (`RoundProps.v`, `Log2Props.v`, `BnewProps.v`, `FsizeProps.v`).  These use Flocq and Coq's real numbers and list
   only axioms of the standard library: `ClassicalDedekindReals.sig_forall_dec`,
   `ClassicalDedekindReals.sig_not_dec`, `FunctionalExtensionality.functional_extensionality_dep`
   and `Classical_Prop.classic` (each theorem lists a subset).  No axiom, section-less variable, functor,
   module type or disabled check is in this development.
3. The reading of the Go code by the `*Model.v` files, with the simplifications below.
4. The specifications in the `*Spec.v` files as a reading of the statements in `properties.jsonl`.
5. The models of Go library code that the repository calls (listed below) and of gorm and MySQL.

## Conventions

* A Go panic is the outcome `Panic`; running out of fuel is `Diverge`.  Theorems state that the
  result is `Ret`, or say exactly when it is not.
* `int`, `int64`, `uint64` wrap where a property can be affected (limiters, rings, bit helpers,
  Split, Abs, conversions).  Elsewhere indices are natural numbers; memory is unbounded.
* The clock, random numbers, scheduling, map iteration order, results of system calls and of the
  database are universally quantified inputs.
* Goroutines are state machines whose steps are single shared accesses; theorems quantify over all
  interleavings (sequential consistency).
* A statement that is false of the code has a theorem `…_refuted` with a computed witness, and the
  strongest true part beside it, called `…_partial` when it has hypotheses the statement does not have.

## Per property

| id | code | model | proof |
|----|------|-------|-------|
| C01–C03 | heap.go, pqueue.go | slice = list; `up`/`down` loops over an abstract store | heap invariant; refinement to multisets by induction over the history |
| C04 | heapn.go | the same with arity `d` and the code's scan width 4 | exact characterisation of the arities that work; counterexample family for all others |
| C05–C06 | maep.go | entry list + index map | invariant "index map is the inverse of the key list"; simulation to the heap |
| C07–C09 | reap.go | memory of entries + list of entry pointers, several reaps | same; foreign handles by characterisation and witness |
| C10–C13 | list.go, deque.go, stack.go | pointers, memory of `next/prev/list/value`, all lists at once | ring invariant; refinement to sequences |
| C14 | set.go | list of keys, `==` a parameter | induction over the history; NaN witness |
| C15–C18 | fix.go, roud.go, unbounded.go | 64-bit counters that wrap, data slice | window invariant; refinement to a bounded (growing) queue |
| C19 | fix.go, roud.go | one producer and one consumer, one step per access to `in`, `out` or a cell | invariant over all interleavings; refuting schedules; single calls against the sequential model |
| C20–C22 | math.go | integers of any width, wrapping | arithmetic |
| C23–C26 | bloom.go, hash.go | bit words, seeds, hash as function of seed and bytes | bit-level lemmas; modular arithmetic for C25 |
| C27–C34 | limiter/* | one definition per TryAcquire with clock reading as argument; sliding log with shared strategy objects | grant-time lists as specification; induction over calls |
| C35 | limiter/*, maps.go | generic machine: lock, single accesses, unlock; RW locks | linearizability once and for all, then instantiated |
| C36–C38 | delayqueue/delayqueue.go | any number of goroutines, 30 program points, sleeping flag, wake channel, timers, cancellation | invariants over all reachable states; liveness under explicit fairness; refuting schedules |
| C39–C45, C71 | timingwheel/* | wheels, buckets, timers, queue, Run loop as a transition system | invariants; exactly-once by a ghost account; refuting schedules |
| C72–C74 | timingwheel/* | the same at the grain of single atomic accesses, lock and channel operations (`WheelFineModel.v`) | lock, account, slot and "no bucket forgotten" invariants; waits-for argument; refuting schedules |
| C46–C48, C75 | md5.go (AES part) | one byte memory, slices with capacity, `append` in place; CBC by blocks; AES as in FIPS-197 (`AesBlockModel.v`) | S-box, rows, columns and schedule against polynomials over GF(2); inverse step by step; CBC for every inverse pair, then for AES |
| C76–C78 | md5.go, files.go, breakpoint_continue.go (MD5 helpers) | crypto/md5 digest with buffer and chunked Write; readers as pieces with or without a final error | RFC 1321 as specification; every round against its tables; invariant of Write |
| C49 | base64.go | encoding/base64 encode and decodeQuantum | induction over quanta |
| C50 | ints.go, strings.go | strconv Itoa, Atoi, ParseInt | numerals as specification |
| C51–C52 | maps.go | map with the nil map, RWMutex through C35 | induction; linearizability |
| C53–C55 | strings.go | byte strings and runes, spare capacity of `[]rune` a parameter | noninterference statements |
| C56–C57, C63–C65 | url.go, rand.go, files.go, csv.go, strings.go | byte strings | exact result, then the property |
| C79–C80 | csv.go | encoding/csv Reader (lines, fields, widths) and Writer on byte strings | a grammar of tables as specification; reader = byte automaton = grammar |
| C58–C59 | files.go, zip.go | filepath Clean/Join on components | lexical containment |
| C60–C62 | breakpoint_continue.go, files.go | files as a map, directories as trees, failing system calls | exact content; interleavings of uploads |
| C81–C84 | files.go (PathExists, CreateDir, MkDir, FileMove, DeLFile, FileExist, IsDir, IsFile, FileIsExisted) | file trees with symbolic links, Linux path resolution, os.MkdirAll, os.Rename, os.RemoveAll | resolution as a relation; exact results, frame conditions, refuting trees |
| C85–C87 | maps.go (JsonStringToMap, MapIntToJsonString, MapToJsonString, Map2JsonString) | encoding/json's encoder and decoder on bytes | parser against the grammar of RFC 8259, strings against a token reading, encoder by induction on the value; refuting texts and maps |
| C88–C90 | files.go (IsTextFile, IsImageFile, IsPDFFile, IsVideoFile) | net/http.DetectContentType of Go 1.18: table, masks, HTML tags, MP4 boxes, text check | each entry against its format; entries in front of one are shown not to match; refuting data |
| C91–C92 | times.go (GetTimeDir) | Time.abs, absDate, appendInt of Go 1.18; clock and zone offset are parameters | one 400-year cycle by computation, periodicity; padded numerals |
| C93–C96 | breakpoint_continue.go | the same functions on file trees with links: path strings, open(2) with O_CREAT, MkdirAll, RemoveAll; ReadDir's answer a parameter | explicit final trees for plain names, one write in general; refuting names |
| C101–C102 | maps.go (Map with callbacks) | Go 1.18's RWMutex, map iteration that may or may not produce new entries, callbacks as trees of accesses | well-founded order on stacks of loops for finiteness; invariant on who holds the lock; reachable deadlocks |
| C97–C99 | zip.go | ZipFiles and Unzip on file trees with links; the zip format an encoder and a decoder parameter; strings.Replace | explicit final trees by induction over files and entries; walks without links stay below the destination; refuting names, links and failures |
| C114–C117 | zip.go with archive/zip and hash/crc32 | the bytes of local headers, data descriptors, directory and end records with zip64, written as Go 1.18's Writer does and read as its Reader does; deflate and inflate are parameters, inflate is that of C118 in `InflZip.v` | reader against writer field by field; the bytes against the layout in APPNOTE.TXT (`ZlaySpec.v`); CRC-32 against division of polynomials over GF(2), injectivity of its step; totality by lengths of the buffers; one record under many headers for the bomb |
| C118 | compress/flate's reader behind zip.go | inflate.go and dict_decoder.go of Go 1.18 on the list of bits: canonical Huffman codes, code lengths, the three kinds of blocks, copies | RFC 1951 as relations (`InflSpec.v`), sound and complete; codes by sums of powers of two; fuel by the bits left; ratio by induction over the relation |
| C119 | zip.go:Unzip with archive/zip's reader and compress/flate's | the models of C114–C118 | the format of APPNOTE.TXT as relations on bytes for archives by any program (`ZanySpec.v`); each part of the reader against its relation, the search for the end by induction, uniqueness of the CRC-32 by a linear map that vanishes on the multiples of the polynomial; three witnesses by vm_compute for what is ambiguous |
| C122 | compress/flate's matcher behind zip.go:ZipFiles | deflate.go of Go 1.18: the sliding window, the hash chains with their rebasing, findMatch, lazy matching, blocks of tokens | tokens replay to the content by the relations of `InflSpec.v` (`LzSpec.v`); an invariant between window and history, every index in range, progress of each round; any coding of the blocks is read back, with C118 |
| C123 | compress/flate's bit writer and Huffman codes behind zip.go:ZipFiles, Unzip | huffman_bit_writer.go and huffman_code.go of Go 1.18: choice of the block format, header, code lengths, bitCounts, assignEncodingAndSize | output stands for the content by `InflSpec.v`; codes by `codes_for` (`HufSpec.v`); invariant of bitCounts: rows with leaves and pairs taken, the row below exhausted, valid or pending; Kraft's sum; with C117 the round trip through the archive |
| C66 | math.go (help/utils) | IEEE doubles (Flocq), math.Trunc, math.Pow10 tables | exact at precision 0, error bounds otherwise |
| C100 | math.go (common/math, Log2) | IEEE doubles (Flocq), math.Log2, math.Frexp; the logarithm a parameter | real inequalities for the product, nearest-double argument for the sum |
| C106 | bloom.go (New) | IEEE doubles (Flocq), math.Ceil, conversions; logarithm and random source parameters | relative errors through the computation, bounds of ln 2 by series, convexity for the estimate |
| C107, C108 | files.go (FileSize) | IEEE doubles (Flocq), math.Floor, math.Pow's loop, fmt's %.nf as exact decimal rounding; logarithm a parameter | relative error of the quotient of logarithms, exponentials near 0; digits by induction |
| C109–C112 | files.go (ImageFileToBase64), runtime.go, sys.go, cmd.go | files of FsModel, filepath.Dir/Abs and strings.Replace on text, process table with kill(1), a shell that reads lines | lemmas about cleaned paths and walks, induction on lines |
| C67–C70 | gorm.go, update.go | statements as text and bound values after gorm's expansion | exact statement; effect on a table as specification |
| C103–C105 | gorm.go (wrappers) | gorm's clause building without a schema: Where of text and of maps, Updates of maps, Delete; statements as tokens | statement equals the rendering of a syntax tree; meaning of the tree row by row with SQL's NULL as specification |
| C113 | gorm.go (InsertToTable) | gorm's Create for maps and slices of maps without a schema: sorted columns, one slot per record and column, VALUES() without columns | invariant of the collecting loop for every iteration order; statement equals the rendering of a syntax tree whose meaning (named columns, defaults elsewhere) is the specification |
| C120, C121 | gorm.go (InsertToTable, BaseModel) | gorm's Create for structs: schema.Parse from the fields and their tags on, ConvertToCreateValues, the callbacks around the transaction and the keys afterwards; by value, by pointer and slices | values of every column by induction over the fields (`StruProps.v`); the statement is the rendering of a syntax tree whose rows are compared with the row wanted for each struct; AUTO_INCREMENT as a counter in the specification |

## Simplifications (also stated at the definitions)

* Containers: slices passed to `heap.New` are not aliased; index overflow guard `j1 < 0` dropped; map
  keys of meap are never NaN; an unhashable key of utils.Map is not modelled.
* Rings: `Peek` is not in the concurrent model (it is in the sequential ones); `copy` moves elements
  one by one in ascending order; loads are not torn.
* Bloom: in C23–C26 the bit count and the number of seeds are arbitrary; C106 has New with its doubles, where the logarithm
  and the conversions of values out of range are parameters.  hash/maphash is an uninterpreted function.
* Log2 (C100): the logarithm is a parameter, accurate to one unit in the last place (an assumption of the theorems;
  the assembly of amd64 is not modelled); no fused multiply-add; arguments that are not positive are not looked at.
* Limiters: `time.Now` is an argument; `sort.Slice` may return any sorted permutation.
* Locks (C35): writer preference of RWMutex is not modelled (it matters for progress only; `lock_progress`
  states what is proved).  It is in `RangeModel.v` (C101, C102), where callbacks of RLockRange and LockRange are
  arbitrary finite code; a panic there is recovered outside of all calls.
* Delay queue: one heap operation under the mutex is one step; time is an unbounded integer; a timer
  fires at any moment from its deadline on.
* Timing wheel: see the header of `WheelModel.v` (the add of one call is one step, Stop is one step, one
  goroutine runs Run, the queue's wake-up protocol is that of C36–C38, unbounded channel, clock in
  milliseconds).  `WheelFineModel.v` (C72–C74) drops these: there a step is one shared access, channels
  hold ten buckets, and any number of Runs is allowed; what it still simplifies is in its header.
* AES: crypto/aes is its definition in FIPS-197, not the assembly or the lookup tables; running time is
  not modelled.
* Text: Unicode lower-casing outside ASCII is a parameter; BuildUrl's parameters are given as formatted text.
* Paths (C58–C62): lexical, Unix, no symbolic links; a file is identified by its path string.
* File trees (C81–C84, C93–C99): see the headers of `FsModel.v`, `UpfsModel.v` and `ZipfsModel.v`; Linux, no hard links, limits or concurrent changes.
* Compressor (C122): see the header of `LzModel.v`: tokens are not packed, the arrays of the hash chains are functions, the level is 4 to 9 (ZipFiles: 5), writing succeeds.
* Bits of the compressor (C123): see the headers of `HufModel.v` and `HcModel.v`: the bit buffer is the list of all bits, the reused frequency arrays are lists, leafCounts and levels are functions, sums do not wrap within the bounds proved, sort.Sort is a merge sort.
* Archives (C114–C117): see the header of `ZfmtModel.v`; compress/flate is a parameter, its reader is modelled in `InflModel.v` (see its header), the archive has no comment, dates are passed on.
  archive/zip, too, was written down from memory; the writer's bytes were compared with another reader by hand.
* Content sniffing (C88–C90): the length checks of DetectContentType's matchers are folded into the comparisons; the
  table was written down from memory of Go 1.18's sniff.go, of which there is no copy in this sandbox.
* JSON (C85–C87): scanner and decoder are one recursive-descent parser; values are trees without finite floats,
  structs and custom marshalers; map keys are sorted by insertion.  See the header of `JsonModel.v`.
* Processes (C109–C112): see the header of `ProcModel.v`; the shell knows no constructs over several lines (quotes, here
  documents), and a file that exists can be read.
* FileSize (C107, C108): as Log2, the logarithm is a parameter; math.Pow is its loop for integer exponents.
* gorm: the JSON dump of a record is a parameter; values are NULL, integers or text; named arguments
  (`@name`) are not modelled; column names are compared exactly; UPDATE evaluates assignments from left
  to right as MySQL does.  Wrappers (C103–C105): a fresh handle, names without dots and back quotes, no transaction
  statements, values of the update map are no slices.  Structs (C120, C121): see the header of `StruModel.v`; gorm was written down from memory.

## Library code modelled

`bits.Len64`, `copy`, `append`, `strings.{Split,Index,Join,Replace,Trim…,LastIndex,ToLower (ASCII)}`, UTF-8
decoding, `strconv.{Itoa,FormatInt,Atoi,ParseInt}`, `encoding/base64` StdEncoding, `encoding/csv`, `archive/zip`, `hash/crc32`, `net/http.DetectContentType`, `crypto/cipher` CBC,
`path/filepath.{Clean,Join,Dir,Abs}`, `os.{Stat,Lstat,MkdirAll,Rename,RemoveAll}`, `math.{Trunc,Floor,Ceil,Pow10,Pow (integers),Log (portable)}`, fmt's `%.nf`, `time.Time.Sub` saturation, gorm's
`clause.{Expr,Eq,IN,Where,Set}.Build`, `Statement.{AddVar,BuildCondition}`, `callbacks.{Update,Delete}` without a schema.

## Not modelled

* compress/flate's writer: a parameter of C114 and C117; all that is asked of it is that its output stands for the content by RFC 1951. Its matcher is modelled for C122, its bit writer and its codes for C123; the levels 0 to 3, -2 and Flush are not (ZipFiles uses level 5).
* gorm_tools: the reflection by which gorm finds the fields, columns and tags of a struct (C120, C121 start from them), associations, hooks, Select and Omit.
* `help/tools/tools.go`, `help/utils/lists.go`, `help/utils/utils.go` are empty.
