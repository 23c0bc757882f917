{
 "claims": [
  {
   "property": "C01",
   "status": "proved",
   "theorems": [
    "heap_pop_peek_minimum",
    "heap_index_calls",
    "pqueue_minimum"
   ],
   "note": ""
  },
  {
   "property": "C02",
   "status": "proved",
   "theorems": [
    "heap_conserves_elements",
    "heap_index_calls"
   ],
   "note": ""
  },
  {
   "property": "C03",
   "status": "proved",
   "theorems": [
    "pqueue_drain_sorted",
    "pqueue_minimum"
   ],
   "note": ""
  },
  {
   "property": "C04",
   "status": "partial",
   "theorems": [
    "heapn_minimum_refuted",
    "heapn_minimum_iff_arity_4",
    "heapn_minimum_push_pop_iff",
    "heapn_minimum_arity_4_partial",
    "heapn_minimum_arity_3_partial",
    "heapn_conserves_elements",
    "heapn_index_calls",
    "heapn_new_rejects_below_2"
   ],
   "note": "REFUTED as stated (down scans k+4 instead of k+n children): correct for all operation sequences iff arity = 4; for Push/Pop/Peek/Len iff arity is 3 or 4. Settled for every arity; positive parts hold for every type and strict weak order."
  },
  {
   "property": "C05",
   "status": "proved",
   "theorems": [
    "meap_is_a_map"
   ],
   "note": "Keys compared by decidable equality; Go key types with NaN are outside the model."
  },
  {
   "property": "C06",
   "status": "proved",
   "theorems": [
    "meap_pop_peek_minimal"
   ],
   "note": ""
  },
  {
   "property": "C07",
   "status": "proved",
   "theorems": [
    "reap_handles_exact"
   ],
   "note": ""
  },
  {
   "property": "C08",
   "status": "proved",
   "theorems": [
    "reap_pop_peek_minimum"
   ],
   "note": ""
  },
  {
   "property": "C09",
   "status": "partial",
   "theorems": [
    "reap_foreign_handle_refuted",
    "reap_dead_handle_rejected_partial",
    "reap_foreign_acts_as_same_index"
   ],
   "note": "REFUTED as stated: Remove with a live handle of another reap deletes this reap's element at the same index. Proved: dead handles are rejected everywhere; a foreign handle acts exactly like the local handle of equal index."
  },
  {
   "property": "C10",
   "status": "proved",
   "theorems": [
    "list_is_a_sequence"
   ],
   "note": "Lists made by New (or Clear, see C11); every handle, foreign and removed ones included."
  },
  {
   "property": "C100",
   "status": "partial",
   "theorems": [
    "log2_int_exact",
    "log2_int_small",
    "log2_int_near",
    "log2_int_pow",
    "log2_float_pow",
    "log2_int_above",
    "log2_int_refuted",
    "go_log_ex"
   ],
   "note": "REFUTED: Log2(2^49-1) is 49 and Log2 of the largest uint64 is 64, for every logarithm within one unit in the last place; all integers within a part in 2^49 below 2^49 and larger powers of two come out one too large. Proved: exact up to 2^49-2, exact above unless within a part in 2^48 below a power of two, never below and at most one above, exact at powers of two. Uses Coq's real numbers (Flocq), as C66. No fused multiply-add."
  },
  {
   "property": "C101",
   "status": "partial",
   "theorems": [
    "range_finite",
    "range_returns",
    "range_race_free",
    "range_panics",
    "range_calls",
    "range_reentrant_refuted"
   ],
   "note": "REFUTED: RLockRange whose callback calls Get deadlocks with a Set that comes in between, LockRange whose callback calls Len deadlocks alone, RLockRange whose callback calls UnsafeSet races with a Get. Proved: executions are finite in any case; with callbacks that use the Unsafe methods only (reading ones under RLockRange) all calls return, callbacks may panic, and there is no race. Go 1.18's RWMutex with writer preference."
  },
  {
   "property": "C102",
   "status": "proved",
   "theorems": [
    "range_entries",
    "range_delete"
   ],
   "note": "Other goroutines use callbacks as in the proved part of C101. The map of the whole call: no write of anybody else comes in between because it is the same at both ends and every pair is of it."
  },
  {
   "property": "C103",
   "status": "proved",
   "theorems": [
    "update_id_exact",
    "update_ids_exact",
    "del_ids_exact"
   ],
   "note": "gorm's statement building for a table given by name is modelled (from memory of 1.24); the meaning of the statement is the specification."
  },
  {
   "property": "C104",
   "status": "partial",
   "theorems": [
    "update_where_exact",
    "update_where_refuted"
   ],
   "note": "REFUTED only for a slice that holds a NULL: a row whose column is NULL agrees but is not changed. Proved for all conditions: one statement, no row that disagrees changes, missing conditions are refused (but not noticed when there is nothing to set); exact if no slice holds a NULL."
  },
  {
   "property": "C105",
   "status": "partial",
   "theorems": [
    "soft_del_exact",
    "soft_del_refuted"
   ],
   "note": "REFUTED: deleting again overwrites deleted_at. Proved: exactly the row with the id gets exactly the two times."
  },
  {
   "property": "C106",
   "status": "partial",
   "theorems": [
    "new_exact",
    "new_is_filter",
    "new_estimate_refuted",
    "new_degenerate_refuted"
   ],
   "note": "REFUTED: for rate 1/2 and 1000 elements there are two hash functions, whose estimate is 0.55; rate 0, rate 1 or a rate above 1 give (on amd64) a filter of no bits that contains everything, or a panic; capacity 0 panics. Proved for every capacity, every rate between 0 and 1 and every logarithm within one unit in the last place: bits and hash functions follow the formulas up to a factor of 1 +- 2^-49, the estimate exceeds the rate by a factor of at most 2^(1.001/h), h the ideal number of hash functions; such filters are those of C23-C26."
  },
  {
   "property": "C107",
   "status": "proved",
   "theorems": [
    "file_size_number",
    "file_size_small"
   ],
   "note": "Above 2^53 bytes the conversion to a double adds an error of at most s 2^-53, as the theorem states."
  },
  {
   "property": "C108",
   "status": "partial",
   "theorems": [
    "file_size_unit",
    "file_size_unit_below",
    "file_size_powers",
    "file_size_1024_refuted",
    "file_size_negative_refuted"
   ],
   "note": "REFUTED: 1048575 bytes are 1024 KB, and every negative size is shown as one between 8 and 16 EB (-1 as 16 EB). Proved: the unit is the right one for every size that is not within a factor of 1 +- 2^-44 of a power of 1024, in particular for every size below 2^50 - 64 that is not itself a power of 1024; for the powers themselves with the portable logarithm."
  },
  {
   "property": "C109",
   "status": "partial",
   "theorems": [
    "image_base64_exact",
    "image_base64_type_refuted",
    "image_base64_kind_refuted"
   ],
   "note": "REFUTED: the media type is always image/png, for a GIF and for plain text alike. Proved: empty exactly for paths without a readable file, otherwise the fixed prefix and the base64 text of the content, which decodes to it."
  },
  {
   "property": "C11",
   "status": "partial",
   "theorems": [
    "list_clear_forgets_refuted",
    "list_zero_value_refuted",
    "list_clear_and_zero_partial"
   ],
   "note": "REFUTED as stated, both halves: Remove with a handle from before Clear makes Len -1; the first insertion into a zero List panics. Proved: every history that avoids these two uses follows the sequence specification, with Clear and zero values allowed."
  },
  {
   "property": "C110",
   "status": "partial",
   "theorems": [
    "current_dir_value",
    "current_dir_exact",
    "current_dir_shape",
    "dir_text_plain",
    "current_dir_refuted"
   ],
   "note": "REFUTED: wrong if the directory's name has a backslash, if the shell found the program in its list of directories (then the working directory is returned), and if the name has two dots behind a link; panics without arguments. Proved: the value for all arguments; right if the name leads to the program without links and without backslashes; always absolute and free of backslashes."
  },
  {
   "property": "C111",
   "status": "partial",
   "theorems": [
    "reload_exact",
    "reload_windows",
    "reload_group_refuted"
   ],
   "note": "REFUTED: if the parent is not in the process's namespace, kill -1 0 is run, which signals the process itself and its whole group. Proved: with a visible parent it gets exactly one SIGHUP and nobody else gets one."
  },
  {
   "property": "C112",
   "status": "partial",
   "theorems": [
    "shell_exec_lines",
    "shell_exec_reader",
    "shell_exec_missing",
    "shell_exec_refuted"
   ],
   "note": "REFUTED: a command that reads its input gets the line exit (ShellExec of cat outputs it); failures before the last command are not reported; the error may be empty and the output is lost then. Proved for a shell that runs line by line: with commands that leave the input alone the outputs one after the other, or the error outputs if the last command fails; a command that reads all of its input gets the rest of the script and is the last one run."
  },
  {
   "property": "C113",
   "status": "partial",
   "theorems": [
    "insert_one",
    "insert_many",
    "insert_many_uniform",
    "insert_none",
    "insert_blank_refuted",
    "insert_default_refuted"
   ],
   "note": "REFUTED: any number of records without fields adds a single row; a field that only other records have is NULL instead of the default. Proved for all iteration orders: a map adds exactly its row; a slice adds one row per map with all its fields, exactly the rows wanted if the field sets agree; the empty slice is an error.  Structs are C120."
  },
  {
   "property": "C114",
   "status": "proved",
   "theorems": [
    "zip_archive_roundtrip",
    "zip_unzip_format",
    "zip_archive_layout",
    "zip_archive_roundtrip_flate",
    "zip_unzip_flate"
   ],
   "note": "Go 1.18's archive/zip writer and reader with zip64; the decompressor is that of C118, the compressor any that follows RFC 1951."
  },
  {
   "property": "C115",
   "status": "partial",
   "theorems": [
    "crc32_remainder",
    "checksum_unique",
    "crc32_detects",
    "unzip_content_checked_partial",
    "unzip_damage",
    "unzip_content_checked_refuted"
   ],
   "note": "REFUTED: a header with the checksum 0 and no data descriptor is not checked at all. Proved: otherwise length and checksum of the header; hash/crc32 is the remainder modulo the CRC-32 polynomial and differs for texts that differ within four neighbouring bytes; damage outside the directory of an archive by ZipFiles is found unless length and checksum stay."
  },
  {
   "property": "C116",
   "status": "proved",
   "theorems": [
    "unzip_reads_anything"
   ],
   "note": ""
  },
  {
   "property": "C117",
   "status": "partial",
   "theorems": [
    "unzip_output_linear_refuted",
    "unzip_output_partial",
    "unzip_output_flate",
    "unzip_output_flate_linear_refuted"
   ],
   "note": "REFUTED: for each k up to 2^40 there is an archive with more than k times its size in files of different names, as headers may share a record, even if nothing is compressed. Proved: at most r/46 times the square of the size for a decompressor of ratio r, 1032/46 with compress/flate."
  },
  {
   "property": "C118",
   "status": "proved",
   "theorems": [
    "inflate_rfc1951",
    "rfc1951_unique",
    "inflate_total",
    "inflate_ratio",
    "huffman_rules",
    "every_content_compresses"
   ],
   "note": "compress/flate's decoder of Go 1.18 in full; the compressor is not modelled."
  },
  {
   "property": "C119",
   "status": "partial",
   "theorems": [
    "unzip_any_archive_partial",
    "unzip_any_comment_refuted",
    "unzip_any_locator_refuted",
    "unzip_any_descriptor_refuted",
    "unzip_any_archive_case"
   ],
   "note": "REFUTED: a comment that contains a record of the end hides all files; a directory of 65535 bytes whose end looks like the locator of zip64 cannot be opened, as reader.go compares its size with 65535; a descriptor without signature whose checksum looks like one cannot be read. Proved for all archives without these three."
  },
  {
   "property": "C12",
   "status": "proved",
   "theorems": [
    "deque_is_double_ended_queue"
   ],
   "note": ""
  },
  {
   "property": "C120",
   "status": "partial",
   "theorems": [
    "insert_structs_rows_partial",
    "insert_structs_invalid",
    "insert_struct_by_value_panics",
    "insert_struct_by_value_refuted",
    "insert_struct_tag_default_refuted",
    "insert_struct_key_tag_refuted",
    "insert_structs_empty_refuted"
   ],
   "note": "REFUTED: a struct by value into which a time, a default or the key has to be filled makes the call panic, before or after the INSERT, and leaves its transaction open with nothing kept; a zero in a field with a default in its tag is stored as the default; an integer key with a default in its tag is a column twice; several structs with only an unset key add one row. Proved otherwise, for every struct type, content and answer. gorm's reflection is not modelled: the fields of the struct and their tags are given."
  },
  {
   "property": "C121",
   "status": "partial",
   "theorems": [
    "struct_keys_partial",
    "struct_keys_refuted"
   ],
   "note": "REFUTED: keys 0, 10, 0 with the counter at 1 become rows 1, 10, 11, and the structs get 1, 10, 2. Proved if the keys given are below the counter and LastInsertId is the first generated key; columns that the table fills by itself are not read back."
  },
  {
   "property": "C122",
   "status": "proved",
   "theorems": [
    "compress_blocks_exact",
    "compress_blocks_read_back"
   ],
   "note": "deflate.go of compress/flate for the levels 4 to 9, with every panic of an index possible in the model; the coding of the tokens as bits is any that RFC 1951 admits."
  },
  {
   "property": "C123",
   "status": "proved",
   "theorems": [
    "compress_stands_for",
    "generate_rfc1951",
    "compress_inflate",
    "zip_unzip_compressed"
   ],
   "note": "huffman_bit_writer.go and huffman_code.go of compress/flate for blocks written by the levels 4 to 9; bitCounts is proved to end, to find n leaves and a complete code for up to 2^max symbols."
  },
  {
   "property": "C13",
   "status": "proved",
   "theorems": [
    "stack_is_lifo"
   ],
   "note": ""
  },
  {
   "property": "C14",
   "status": "partial",
   "theorems": [
    "set_contains_and_len_partial",
    "set_nan_refuted"
   ],
   "note": "REFUTED for float elements that are NaN (== is not reflexive). Proved for every element type whose == is an equivalence."
  },
  {
   "property": "C15",
   "status": "partial",
   "theorems": [
    "fix_ring_is_bounded_fifo_partial",
    "fix_new_accepts",
    "fix_ring_wraparound_refuted"
   ],
   "note": "REFUTED when the 64-bit counters wrap and the size does not divide 2^64 (for every such size). Proved: all histories of fewer than 2^64 offered elements, and all histories when the size divides 2^64; the two theorems together are an exact characterisation."
  },
  {
   "property": "C16",
   "status": "proved",
   "theorems": [
    "round_ring_is_bounded_fifo"
   ],
   "note": ""
  },
  {
   "property": "C17",
   "status": "partial",
   "theorems": [
    "round_new_capacity_refuted",
    "round_new_capacity_partial"
   ],
   "note": "REFUTED for sizes above 2^63: New returns a ring of capacity 0. Proved for all other sizes."
  },
  {
   "property": "C18",
   "status": "partial",
   "theorems": [
    "unbounded_ring_zero_size_refuted",
    "unbounded_ring_is_growing_fifo_partial"
   ],
   "note": "REFUTED: MPopCopy on a ring of size 0 divides by zero. Proved for every history without that call and with fewer than 2^64 offered elements (same counter wrap as C15)."
  },
  {
   "property": "C19",
   "status": "partial",
   "theorems": [
    "spsc_push_refuted",
    "spsc_pop_refuted",
    "spsc_mpush_refuted",
    "spsc_mpop_too_many",
    "spsc_fix_bulk_partial",
    "spsc_round_bulk_partial",
    "spsc_alone_producer",
    "spsc_alone_consumer"
   ],
   "note": "REFUTED: Push and Pop move the counter before touching the slot; MPush reads Avail twice. Proved for every schedule: MPush with exact slices against MPop/MPopCopy delivers a prefix of what was accepted; each call without a concurrent one is that of C15/C16."
  },
  {
   "property": "C20",
   "status": "partial",
   "theorems": [
    "pow2_helpers_exact_partial",
    "round_up_zero_refuted"
   ],
   "note": "REFUTED only for RoundUpPowOf2(0), which returns 0 although 1 is representable. Proved for every other value and width."
  },
  {
   "property": "C21",
   "status": "partial",
   "theorems": [
    "split_parts_refuted",
    "split_exact_iff_partial",
    "split_covers_partial",
    "split_zero_panics"
   ],
   "note": "REFUTED e.g. for (5,4): per=2, last=1 describes 3 parts. Proved: exactly when it is right, and that the parts always cover n."
  },
  {
   "property": "C22",
   "status": "partial",
   "theorems": [
    "abs_refuted",
    "min_max_abs_partial"
   ],
   "note": "REFUTED only for Abs of the least value of a signed type. Proved for everything else."
  },
  {
   "property": "C23",
   "status": "proved",
   "theorems": [
    "bloom_no_false_negative",
    "bloom_monotone",
    "bloom_clear_empties"
   ],
   "note": "For every raw bit count, every seed list; the float computation of the raw count in New is a parameter."
  },
  {
   "property": "C24",
   "status": "proved",
   "theorems": [
    "bloom_contains_exact",
    "bloom_order_irrelevant"
   ],
   "note": ""
  },
  {
   "property": "C25",
   "status": "partial",
   "theorems": [
    "bloom_probes_dependent_refuted",
    "bloom_one_collision_suffices",
    "bloom_probes_independent_partial"
   ],
   "note": "REFUTED exactly for power-of-two bit counts (including the smallest filters, 64 and 128 bits): there one colliding probe implies all collide. For every other size a pair of elements that collides under one seed only is exhibited."
  },
  {
   "property": "C26",
   "status": "proved",
   "theorems": [
    "hash_is_function"
   ],
   "note": "hash/maphash is abstract (seed, bytes written since Reset)."
  },
  {
   "property": "C27",
   "status": "proved",
   "theorems": [
    "fixed_window_per_window",
    "fixed_window_any_interval"
   ],
   "note": "Monotonic readings in 0..2^63, window >= 0, any int limit (negative counts as 0)."
  },
  {
   "property": "C28",
   "status": "proved",
   "theorems": [
    "fixed_window_exact",
    "fixed_window_refusal",
    "fixed_window_next"
   ],
   "note": ""
  },
  {
   "property": "C29",
   "status": "partial",
   "theorems": [
    "leaky_bucket_bounds_partial",
    "leaky_bucket_recovers_partial",
    "leaky_bucket_overflow_refuted"
   ],
   "note": "REFUTED for velocities whose product with the idle seconds overflows int64 (the level then exceeds the peak). Missing: nothing else; proved whenever peak + velocity*(elapsed seconds) < 2^63 and both are non-negative."
  },
  {
   "property": "C30",
   "status": "partial",
   "theorems": [
    "token_bucket_bounds_partial",
    "token_bucket_recovers_partial",
    "token_bucket_overflow_refuted"
   ],
   "note": "REFUTED for rates whose product with the idle seconds overflows int64 (the bucket then grants without limit). Proved whenever capacity + rate*(elapsed seconds) < 2^63 and both are non-negative."
  },
  {
   "property": "C31",
   "status": "partial",
   "theorems": [
    "sliding_window_interval_refuted",
    "sliding_window_interval_partial",
    "sliding_window_new"
   ],
   "note": "REFUTED: two grants one nanosecond apart with limit 1. Proved: intervals of length window - smallWindow hold at most limit grants, intervals shorter than window at most twice the limit."
  },
  {
   "property": "C32",
   "status": "proved",
   "theorems": [
    "sliding_window_exact",
    "sliding_window_consecutive"
   ],
   "note": "Positive windows, readings in 0..2^63."
  },
  {
   "property": "C33",
   "status": "proved",
   "theorems": [
    "sliding_log_exact"
   ],
   "note": "As long as no other limiter is built from the same strategy objects (see C34)."
  },
  {
   "property": "C34",
   "status": "partial",
   "theorems": [
    "sliding_log_new_exact",
    "sliding_log_new_order",
    "sliding_log_alias_refuted",
    "sliding_log_zero_panics"
   ],
   "note": "REFUTED: building a second limiter from the same strategy objects changes the first (the copy is shallow). Acceptance condition and independence of argument order are proved for every order sort.Slice may produce; smallWindow = 0 panics."
  },
  {
   "property": "C35",
   "status": "proved",
   "theorems": [
    "lock_linearizable",
    "lock_exclusive",
    "lock_progress",
    "fixed_window_concurrent",
    "leaky_bucket_concurrent_partial",
    "token_bucket_concurrent_partial",
    "sliding_window_concurrent",
    "sliding_log_concurrent",
    "map_concurrent"
   ],
   "note": "General theorem for any object whose read-locked bodies do not write; instantiated to the five limiters and utils.Map access by access. The *_partial instances carry the overflow conditions of C29/C30, not a gap in linearizability."
  },
  {
   "property": "C36",
   "status": "proved",
   "theorems": [
    "delay_queue_delivers",
    "delay_queue_exclusive",
    "delay_queue_peek_empty",
    "delay_queue_peek_empty_call"
   ],
   "note": "Every reachable state, any number of goroutines, with cancellation and Channel. Due means now > expiration for Take, now >= expiration for Pop, as in the code."
  },
  {
   "property": "C37",
   "status": "partial",
   "theorems": [
    "delay_queue_push_deadlock_refuted",
    "delay_queue_calls_complete_partial",
    "delay_queue_wakeup_partial",
    "delay_queue_take_returns_partial",
    "delay_queue_take_delivers_partial"
   ],
   "note": "REFUTED: after a Take on a sleeping queue is cancelled, the next Push of a new first element blocks for ever holding the mutex. Proved for one taker that is not cancelled, under a fair scheduler and mutex: all other calls return, no wake-up is lost, Take returns an element."
  },
  {
   "property": "C38",
   "status": "partial",
   "theorems": [
    "delay_queue_two_takers_refuted",
    "delay_queue_cancel_partial"
   ],
   "note": "REFUTED: of two takers whose timers fire together one may stay blocked although an expired element is present and its context is cancelled, until somebody else calls Take. Proved for any number of takers: a Take in its select leaves it once cancelled."
  },
  {
   "property": "C39",
   "status": "partial",
   "theorems": [
    "wheel_at_most_once",
    "wheel_afterfunc_lost_refuted",
    "wheel_settles_partial",
    "wheel_due_started_partial",
    "wheel_afterfunc_runs_partial"
   ],
   "note": "REFUTED: a timer with a delay below one tick is dropped and never runs. At most once: proved for all executions and parameters. Exactly once: proved for sane parameters (tick >= 1, wheelSize >= 2, no int64 overflow), delays of at least one tick and executions in which the queue hands out a bucket only after Run has finished the one before."
  },
  {
   "property": "C40",
   "status": "partial",
   "theorems": [
    "wheel_early_refuted",
    "wheel_on_time_partial",
    "wheel_processed_partial"
   ],
   "note": "REFUTED: when the queue runs ahead of Run, a bucket waiting in the channel can be refilled with timers of the next round, which are started up to a full round early. Proved for executions in which the queue does not run ahead; 'processed' then means a bucket expiration beyond the timer's."
  },
  {
   "property": "C41",
   "status": "partial",
   "theorems": [
    "wheel_delay_refuted",
    "wheel_delay_partial"
   ],
   "note": "REFUTED: tick 10, delay 19 is started after 11 ms. Proved (queue not ahead of Run): early by less than one tick, and never early with tick 1. The sub-millisecond truncation by UnixMilli is below the model's clock."
  },
  {
   "property": "C42",
   "status": "partial",
   "theorems": [
    "wheel_stop_moving_refuted",
    "wheel_stop_partial"
   ],
   "note": "REFUTED: Stop of a timer that Run is just moving to a lower wheel returns false, and its task runs later. Proved for every execution when the timer is not being moved; for timers made by ScheduleFunc see C71."
  },
  {
   "property": "C43",
   "status": "partial",
   "theorems": [
    "wheel_size_one_refuted",
    "wheel_add_returns_partial",
    "wheel_calls_return_partial"
   ],
   "note": "REFUTED for wheelSize 1: add recurses through ever more overflow wheels. Proved for wheelSize >= 2 without int64 overflow: at most 64 levels; add can wait only for the bucket being flushed, which Run gives back when the queue does not run ahead."
  },
  {
   "property": "C44",
   "status": "partial",
   "theorems": [
    "wheel_cancel_crash_refuted",
    "wheel_cancel_partial"
   ],
   "note": "REFUTED: after the cancellation the queue closes its channel and Run may receive nil from it and dereference it. Proved: no crash before the channel is closed, which needs the cancellation; Run can return whenever it waits."
  },
  {
   "property": "C45",
   "status": "partial",
   "theorems": [
    "wheel_queue_polls_refuted",
    "wheel_queue_due_partial"
   ],
   "note": "REFUTED for every head expiration not yet due: the wait is now - expiration, never positive, so take polls without pause. Proved: no bucket is handed out before its expiration has passed."
  },
  {
   "property": "C46",
   "status": "partial",
   "theorems": [
    "aes_round_trip_partial",
    "aes_bad_key",
    "aes_key_overwritten_refuted",
    "gf_products",
    "sbox_affine",
    "shift_rows_spec",
    "mix_columns_spec",
    "expand_key_spec",
    "aes_block_spec",
    "aes_block_bytes",
    "aes_block_inverse",
    "aes_block_onto"
   ],
   "note": "AES itself is modelled (FIPS-197: S-boxes, ShiftRows, MixColumns, key schedule, proved equal to a separate statement of the standard over GF(2) polynomials). For every data and every key of 16, 24 or 32 bytes the result is the CBC chaining of the padded data and decryption returns the data, provided the key does not lie in the spare capacity of the data slice; invalid key lengths give an error from both. REFUTED without that proviso: padding appended in place overwrites the key before it is read as the initialisation vector."
  },
  {
   "property": "C47",
   "status": "partial",
   "theorems": [
    "aes_decrypt_short_refuted",
    "aes_decrypt_padding_refuted",
    "aes_decrypt_cases_partial"
   ],
   "note": "REFUTED for every valid key: any length that is not a multiple of 16 panics, some block panics because its padding byte is larger than the text, some block with a padding byte 0 and some with unequal padding bytes are accepted. Exact outcome proved for whole blocks, with the unique text the input is the chaining of: the only error is the empty input."
  },
  {
   "property": "C48",
   "status": "partial",
   "theorems": [
    "aes_clobbers_refuted",
    "aes_writes_partial"
   ],
   "note": "REFUTED for slices with spare capacity: the padding is written there. Proved: only the up to 16 bytes behind the data change, only if they fit, and never the data itself."
  },
  {
   "property": "C49",
   "status": "proved",
   "theorems": [
    "base64_round_trip",
    "base64_length",
    "base64_alphabet",
    "base64_newlines",
    "base64_prefix"
   ],
   "note": "encoding/base64's StdEncoding modelled (encode, decodeQuantum with its newline and padding rules)."
  },
  {
   "property": "C50",
   "status": "partial",
   "theorems": [
    "conv_same",
    "conv_decimal",
    "conv_round_trip",
    "conv_canonical",
    "conv_not_decimal_partial",
    "conv_overflow_first",
    "conv_not_decimal_refuted"
   ],
   "note": "Round trips for every int64, both parsers equal on every byte string, every decimal numeral gives its value clamped to the range, other text gives 0. REFUTED for text whose digits overflow uint64 before the first bad character: that gives the bound instead of 0 (\"99999999999999999999x\")."
  },
  {
   "property": "C51",
   "status": "partial",
   "theorems": [
    "map_concurrent",
    "map_unsafe",
    "test_and_set_keeps",
    "test_and_set_stores",
    "test_and_set_once",
    "test_and_set_ambiguous_refuted"
   ],
   "note": "REFUTED only for the last clause: when nil is stored under the key, TestAndSet answers nil exactly as if it had stored. Everything else proved, also under concurrency. Unhashable keys not modelled."
  },
  {
   "property": "C52",
   "status": "partial",
   "theorems": [
    "switch_default_on",
    "switch_set_get_partial",
    "switch_set_nil_refuted"
   ],
   "note": "REFUTED for the nil option map: the value set is lost. Proved for every non-nil map."
  },
  {
   "property": "C53",
   "status": "proved",
   "theorems": [
    "hide_mobile",
    "hide_name",
    "hide_name_short",
    "hide_name_long",
    "hide_email",
    "hide_star_total",
    "hide_star_capacity"
   ],
   "note": "Noninterference for every pair of inputs of each class; the result is total when []rune has capacity for three runes (the compiler's stack buffer has 32) and would panic with exact capacity."
  },
  {
   "property": "C54",
   "status": "partial",
   "theorems": [
    "mask_ascii_partial",
    "mask_any",
    "mask_too_many_refuted",
    "mask_unmasked_refuted",
    "mask_wide_refuted"
   ],
   "note": "Proved for ASCII text longer than offset+maskNumber (for bank cards plus the excess over 16). REFUTED: a larger maskNumber masks nothing at all; non-ASCII text gets NUL characters, changes its length and has fewer characters masked (exact result for any encoding in mask_any)."
  },
  {
   "property": "C55",
   "status": "partial",
   "theorems": [
    "mask_name_total",
    "mask_name_revealed_refuted",
    "mask_name_shown_refuted",
    "mask_name_hidden_partial"
   ],
   "note": "Never panics. REFUTED: names of two to four characters and more than four bytes (e.g. Chinese names) are shown in full. Proved: names of five or more characters depend only on the first and last two, names of at most four bytes only on the first."
  },
  {
   "property": "C56",
   "status": "partial",
   "theorems": [
    "build_url_value",
    "build_url_same_site_partial",
    "build_url_foreign_refuted",
    "build_url_empty_refuted"
   ],
   "note": "Exact value for every prefix and parameter list (parameters as formatted strings). REFUTED: without prefix the result is //key/value, a protocol-relative URL, or empty; a prefix starting with a backslash is also foreign. Proved: same-site exactly when the trimmed prefix is non-empty and does not start with a backslash."
  },
  {
   "property": "C57",
   "status": "proved",
   "theorems": [
    "same_site_iff"
   ],
   "note": ""
  },
  {
   "property": "C58",
   "status": "proved",
   "theorems": [
    "safe_path_inside",
    "safe_path_exact",
    "escape_is_malicious",
    "clean_walk"
   ],
   "note": "Lexical: filepath.Join/Clean modelled on components (Unix), symbolic links not modelled."
  },
  {
   "property": "C59",
   "status": "partial",
   "theorems": [
    "unzip_escapes_refuted",
    "unzip_inside_partial",
    "unzip_complete"
   ],
   "note": "REFUTED (zip slip): an entry named ../../etc/cron.d/job is written outside the destination. Proved: archives whose names pass IsMaliciousPath are written inside, whatever calls fail; without failures every entry is written in full."
  },
  {
   "property": "C60",
   "status": "partial",
   "theorems": [
    "upload_complete_partial",
    "make_file_content",
    "make_again",
    "remove_chunk_exact",
    "upload_missing_refuted",
    "make_again_refuted"
   ],
   "note": "REFUTED in part: MakeFile reports success with a chunk missing and loses the chunk after it, and a repeated or interrupted MakeFile duplicates content. Proved: any interleaving of (failed, partial, repeated, foreign) chunk uploads whose last write of each number is complete gives exactly the concatenation; the exact result for arbitrary chunk directories; a second call doubles the file, always."
  },
  {
   "property": "C61",
   "status": "partial",
   "theorems": [
    "copy_file_partial",
    "copy_file_failed",
    "copy_file_tail_refuted"
   ],
   "note": "REFUTED: the destination is opened without O_TRUNC, so a longer destination keeps its tail. Proved: the exact content and count, equality when the destination is absent or not longer, and that no other file changes."
  },
  {
   "property": "C62",
   "status": "partial",
   "theorems": [
    "scan_dir_partial",
    "scan_files",
    "scan_fails",
    "scan_order",
    "scan_root_refuted"
   ],
   "note": "REFUTED for the root directory (the trimmed name is empty). Proved for every other directory and every tree: exactly the leaves, no duplicates, in directory order, and failure exactly when some directory is unreadable."
  },
  {
   "property": "C63",
   "status": "proved",
   "theorems": [
    "rand_str_ok",
    "rand_str_every",
    "rand_str_negative"
   ],
   "note": "For every random source; every text of the class is possible; a negative size panics."
  },
  {
   "property": "C64",
   "status": "partial",
   "theorems": [
    "suffix_name_partial",
    "unbordered_char",
    "suffix_name_refuted",
    "is_image_partial",
    "is_image_refuted"
   ],
   "note": "REFUTED: separators that overlap themselves and the empty separator; IsImage accepts a name without any extension (\"png\") and an extension followed by a space. Proved for separators without border (every single character) and for ASCII extensions; non-ASCII lower-casing is a parameter."
  },
  {
   "property": "C65",
   "status": "partial",
   "theorems": [
    "upper_first_refuted",
    "format_byte_refuted",
    "write_csv_refuted",
    "text_args_partial"
   ],
   "note": "REFUTED for all three: UpperFirst returns its argument unchanged, FormatByte always returns \"32.00 B\", WriteCsv always appends the same row. Proved: WriteCsv keeps the existing content, UpperFirst is right when the first byte is not a lower-case ASCII letter."
  },
  {
   "property": "C66",
   "status": "partial",
   "theorems": [
    "round0_partial",
    "round_near_partial",
    "round0_negative_refuted",
    "round_negative_refuted",
    "round_half_refuted",
    "round_odd_refuted",
    "round_tenth_refuted",
    "round_range_refuted"
   ],
   "note": "REFUTED: every negative number below -1/2 that is not a tie (Round(-2,0) = -1), the double below 1/2, odd integers from 2^52 to 2^53, 0.15 at one digit, NaN or infinity at extreme precisions. Proved on IEEE doubles (Flocq): right at precision 0 for all other numbers from -1/2 to 2^900; at precisions 0..22 the result for non-negative numbers is nearest up to a relative error of 2^-51. Uses the standard library's real-number axioms."
  },
  {
   "property": "C67",
   "status": "partial",
   "theorems": [
    "split_insert_partial",
    "split_insert_diverges_refuted",
    "split_insert_empty_refuted",
    "split_insert_limit_refuted"
   ],
   "note": "REFUTED: a first record with more than 65000 fields makes it loop forever; a first record without fields makes it return success with nothing sent; records with more fields than the first exceed the limit. Proved for records with the same number of fields (1..65000), any database answers, any iteration order and conversion failures: all records once, in order, every statement at most 65000 values, and exactly which statements were sent before a failure."
  },
  {
   "property": "C68",
   "status": "partial",
   "theorems": [
    "batch_insert_statement",
    "batch_insert_partial",
    "batch_insert_bad_record",
    "batch_insert_fields_refuted",
    "batch_insert_name_refuted"
   ],
   "note": "REFUTED for differing field sets (extra fields dropped, missing ones NULL) and for a field name with a question mark. Proved: the exact statement after gorm's placeholder expansion for any records and iteration order; every row stores exactly its record if the field sets agree."
  },
  {
   "property": "C69",
   "status": "proved",
   "theorems": [
    "split_update_batches",
    "split_update_order"
   ],
   "note": "For every map and iteration order; also all batches but the last are full and they are executed in turn until the first error."
  },
  {
   "property": "C70",
   "status": "partial",
   "theorems": [
    "batch_update_effect",
    "batch_update_partial",
    "batch_update_rejects",
    "update_values",
    "batch_update_fields_refuted",
    "batch_update_id_refuted",
    "batch_update_empty_refuted"
   ],
   "note": "REFUTED: extra fields are dropped or an error is reported depending on map iteration order; updating the id column can null the other fields; an empty field set sends an invalid statement. Proved, with MySQL's left-to-right semantics: equal field sets without the id column update exactly the given rows and fields, for all iteration orders; entries lacking a field of the first are rejected before anything is sent."
  },
  {
   "property": "C71",
   "status": "partial",
   "theorems": [
    "wheel_periodic_once",
    "wheel_periodic_stop_refuted",
    "wheel_periodic_stop_partial"
   ],
   "note": "REFUTED: Stop between the start of a periodic task and its rescheduling returns false and the timer goes on. Proved for every execution: never pending twice, never started more often than scheduled, and a Stop that returned true is final."
  },
  {
   "property": "C72",
   "status": "proved",
   "theorems": [
    "wheel_account",
    "wheel_buckets",
    "wheel_exclusion",
    "wheel_none_forgotten",
    "wheel_channel_read",
    "wheel_slots"
   ],
   "note": "Fine-grained model (WheelFineModel): one atomic access, mutex or channel operation per step, any number of goroutines and Runs, cancellation included. wheel_none_forgotten and wheel_slots ask that the times of all timers are in 0..2^63-1 ms; wheel_channel_read is for one Run that is not cancelled."
  },
  {
   "property": "C73",
   "status": "proved",
   "theorems": [
    "wheel_stop_final",
    "wheel_stop_told",
    "wheel_stop_only_own"
   ],
   "note": "Fine-grained model, any number of concurrent Stop calls. Whether Stop returns true for a pending timer is C42."
  },
  {
   "property": "C74",
   "status": "partial",
   "theorems": [
    "wheel_run_self_wait_refuted",
    "wheel_self_wait_forever",
    "wheel_cancelled_run_stuck_refuted",
    "wheel_afterfunc_stuck_refuted",
    "wheel_progress_partial",
    "wheel_waits_blocked"
   ],
   "note": "REFUTED three ways: a delayed AfterFunc can set a bucket's expiration back, after which Run re-adds a later timer to the bucket whose mutex it holds and waits for itself for ever; a cancelled Run can block for ever in the wake-up send of push; after a cancellation the next AfterFunc can block for ever holding the queue's mutex, another Run does not help. Proved, for one Run that is not cancelled: every goroutine inside a call can move or waits, transitively, for one that can, or for the run loop that waits for itself."
  },
  {
   "property": "C75",
   "status": "partial",
   "theorems": [
    "aes_key_leak",
    "aes_prefix_leak",
    "aes_secrecy_refuted"
   ],
   "note": "REFUTED: the initialisation vector is the key. For every key and every data of at least 16 bytes, decrypting the first ciphertext block, a zero block and the first block again, followed by the last two blocks, gives two text blocks whose xor is the first 16 bytes of the key; and encryption is deterministic, so texts that agree on their first n blocks have ciphertexts that agree on n blocks."
  },
  {
   "property": "C76",
   "status": "proved",
   "theorems": [
    "md5_helpers",
    "md5_unique"
   ],
   "note": "crypto/md5 is modelled with its buffer and chunked Write; the specification is RFC 1321. For every content and every way the reads cut it, all helpers return the 32 lower-case hexadecimal digits of the one digest, and checkSum never panics."
  },
  {
   "property": "C77",
   "status": "partial",
   "theorems": [
    "compute_file_md5_error_refuted",
    "file_md5_errors"
   ],
   "note": "REFUTED for ComputeFileMD5, which drops the error of io.Copy and returns the digest of what was read before. Proved: FileMd5 returns an error and no digest for a file that does not open or cannot be read to the end; ComputeFileMD5 always returns the digest of what was read."
  },
  {
   "property": "C78",
   "status": "partial",
   "theorems": [
    "md5v_salt_refuted",
    "md5v_salt_partial",
    "md5v_clobbers_refuted",
    "md5v_writes_partial",
    "check_md5_case_refuted",
    "check_md5_exact"
   ],
   "note": "REFUTED: the extra bytes of MD5V are not hashed but printed in front of the digest of the content, and the digest is also written into the caller's array behind them if it has room; CheckMd5 rejects upper-case digits. Exact results proved: MD5V is the digits of the extra bytes followed by the digits of the digest, exactly which bytes of memory change, and CheckMd5 accepts exactly the lower-case digits of the digest."
  },
  {
   "property": "C79",
   "status": "proved",
   "theorems": [
    "read_csv_exact",
    "read_csv_nil",
    "csv_round_trip",
    "csv_round_trip_exact",
    "csv_round_trip_refuted"
   ],
   "note": "encoding/csv's Reader and Writer are modelled. The round trip holds for rows other than a single empty field (which is written as a blank line and lost) and up to the carriage returns in fields, which the writer drops; csv_round_trip_refuted shows both conditions are needed. The statement of the property that concerns ReadCsv itself has no conditions."
  },
  {
   "property": "C80",
   "status": "partial",
   "theorems": [
    "csv_write_read_refuted",
    "csv_write_read_partial",
    "csv_writes_partial"
   ],
   "note": "REFUTED: the content argument is ignored and the fixed row 1,2,3,4,\"5,6\" is written; a table of another width can no longer be read at all; a last line without its end is merged with the new row. Proved: below a table whose last line is ended the fixed row is added iff it has five columns, otherwise nothing is readable any more; n calls on an empty file give n rows."
  },
  {
   "property": "C81",
   "status": "partial",
   "theorems": [
    "is_dir_exact",
    "tests_sound",
    "tests_complete",
    "tests_refuted"
   ],
   "note": "REFUTED: IsFile is true of a path where nothing is; FileExist and FileIsExisted answer true for a path through a file, through a directory that must not be searched, or a cycle of links. Proved on a model of Linux path resolution with links: IsDir is exact; a negative answer of the others is right; what can be reached is reported right by all of them."
  },
  {
   "property": "C82",
   "status": "partial",
   "theorems": [
    "mk_dir_safe",
    "create_dir_safe",
    "mk_dir_plain",
    "mk_dir_refuted"
   ],
   "note": "REFUTED only in its last part: an error may come after directories were made. Proved for every tree and path: they return, add only directories, success means that every path is a directory; paths of names with directories on the way succeed and exactly their missing part is created."
  },
  {
   "property": "C83",
   "status": "partial",
   "theorems": [
    "file_move_safe",
    "file_move_partial",
    "abs_path_walk",
    "file_move_refuted"
   ],
   "note": "REFUTED: an empty destination is a success without a move; a failed move can leave new directories, also inside the source; a move through a link inside the moved directory succeeds and leaves nothing at the destination path. Proved: FileMove returns; an error means that at most directories were added; a success means that the entry the source names was moved to the entry the destination names, links resolved; without links and with directories or nothing on the way it succeeds."
  },
  {
   "property": "C84",
   "status": "partial",
   "theorems": [
    "del_file_entry",
    "del_file_ok",
    "del_file_refuted"
   ],
   "note": "REFUTED: the path f/ of a file f denotes nothing but removes f; paths ending in .. or in ./ remove everything in a directory and then report an error. Proved: a path that names an entry removes exactly it and what is below, links are not followed; a success never removes anything else."
  },
  {
   "property": "C85",
   "status": "partial",
   "theorems": [
    "json_to_map_exact",
    "json_to_map_partial",
    "json_to_map_nil",
    "json_to_map_refuted"
   ],
   "note": "encoding/json's decoder is modelled; the specification is the grammar of RFC 8259. REFUTED: values of other types and integers that do not fit become 0 instead of making the result nil. Proved for every text: exactly which map is returned; the object's members if all values are 32-bit integers; nil exactly for texts that are not an object (or are nested deeper than 10000)."
  },
  {
   "property": "C86",
   "status": "partial",
   "theorems": [
    "json_round_trip",
    "json_round_trip_exact",
    "json_round_trip_refuted"
   ],
   "note": "REFUTED for keys that are not UTF-8: their bytes are replaced, different keys become equal and entries are lost. Proved: the identity for all maps with UTF-8 keys and nil; for arbitrary keys exactly what comes back."
  },
  {
   "property": "C87",
   "status": "partial",
   "theorems": [
    "to_json_partial",
    "to_json_plain",
    "to_json_refuted"
   ],
   "note": "REFUTED: a value without JSON form (a channel, a function, NaN) anywhere inside gives the empty string, which is no JSON text. Proved for all other trees: the result is a text of the value with sorted members; it is always one line without <, > and &."
  },
  {
   "property": "C88",
   "status": "proved",
   "theorems": [
    "is_pdf_iff",
    "is_image_iff",
    "sniff_exclusive",
    "sniff_512"
   ],
   "note": "http.DetectContentType (Go 1.18) is modelled with its whole table; the order of the entries is what has to be shown harmless."
  },
  {
   "property": "C89",
   "status": "partial",
   "theorems": [
    "is_text_exact",
    "is_text_short",
    "is_text_refuted"
   ],
   "note": "REFUTED both ways: plain text that begins like a format is refused (BMW... is an image, a text with LP at offset 34 a font), binary data behind 512 bytes of text or behind an HTML tag is accepted. Proved: exactly which data is accepted; for data of at most 512 bytes without signature, markup and byte order mark the claim itself."
  },
  {
   "property": "C90",
   "status": "partial",
   "theorems": [
    "is_video_exact",
    "is_video_refuted"
   ],
   "note": "REFUTED: an MP4 file whose first box has 256 or 512 bytes begins like an icon and is an image instead. Proved: exact for all other data."
  },
  {
   "property": "C91",
   "status": "proved",
   "theorems": [
    "time_dir_exact",
    "day_number_unique"
   ],
   "note": "time.Now().Format with Go 1.18's absDate; the calendar of the specification is a day-after-day relation starting at 1970-01-01; one 400-year cycle is checked by computation, the rest by periodicity. The clock and the zone offset are parameters."
  },
  {
   "property": "C92",
   "status": "proved",
   "theorems": [
    "time_dir_same_day",
    "time_dir_order",
    "time_dir_order_refuted"
   ],
   "note": "The bound in the statement is needed: 10000/01/01 sorts before 9999/12/31 (time_dir_order_refuted)."
  },
  {
   "property": "C93",
   "status": "partial",
   "theorems": [
    "bp_continue_exact",
    "bp_continue_any",
    "chunk_place_inj",
    "bp_continue_refuted"
   ],
   "note": "REFUTED: .. in either name writes outside of breakpointDir, and a slash lets one upload overwrite a chunk of another. Proved: the claim for names without slash (md5 not . or ..) when no link or wrong kind of node is in the way, with failing writes; for all names and trees that at most one regular file is written and that the returned path then leads to the data."
  },
  {
   "property": "C94",
   "status": "partial",
   "theorems": [
    "mk_file_exact",
    "mk_file_refuted"
   ],
   "note": "REFUTED: with .. in the file name two calls append chosen data to a chosen file outside. Proved: the exact result, also of a failing write, for plain names."
  },
  {
   "property": "C95",
   "status": "partial",
   "theorems": [
    "rm_chunk_exact",
    "rm_chunk_refuted"
   ],
   "note": "REFUTED: the empty name removes all uploads, .. empties the working directory, ../fileDir removes the finished files. Proved: exact for plain names."
  },
  {
   "property": "C96",
   "status": "proved",
   "theorems": [
    "upload_flow"
   ],
   "note": "On the file tree, with the path strings of the code; the statement is about plain names."
  },
  {
   "property": "C97",
   "status": "partial",
   "theorems": [
    "zip_files_exact",
    "zip_files_frame",
    "zip_files_nil",
    "go_replace_exact",
    "replaced_unique",
    "zip_files_refuted"
   ],
   "note": "REFUTED: a missing file costs the old archive; a failing zipWriter.Close is dropped, so nil is returned for an unusable archive; a directory is an error after its entry is written. Proved: the exact archive when every path leads to a regular file other than the archive; in all cases only the archive changes; nil means every file is in it unless Close failed. The zip format is an encoder parameter."
  },
  {
   "property": "C98",
   "status": "partial",
   "theorems": [
    "zip_unzip",
    "unzip_file_exact",
    "zip_unzip_refuted"
   ],
   "note": "REFUTED: the replacement can make two names equal, then one file is lost without error; a path with .. comes out beside the destination; an empty oldForm spreads newForm over the name. Proved: the claim for names without .. of which none is another or below it, with room in the tree, for any encoder and decoder that agree; extraction also of directory entries."
  },
  {
   "property": "C99",
   "status": "partial",
   "theorems": [
    "unzip_file_contained",
    "unzip_file_refuted"
   ],
   "note": "REFUTED: .. in a name, a link that is already below the destination, and an absolute name with an empty destination overwrite files outside; a directory that cannot be made is no error; a failed extraction leaves files. Proved: the claim for names without .. and destinations without links, whatever fails."
  }
 ]
}