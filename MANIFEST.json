{
 "claims": [
  {
   "property": "C01",
   "status": "proved",
   "theorems": [
    "C01_base64_roundtrip",
    "C01_base64_roundtrip_default",
    "C01_base64_pull_decode"
   ],
   "note": "Any 64-character alphabet; push and pull driving of the converter."
  },
  {
   "property": "C02",
   "status": "proved",
   "theorems": [
    "C02_base64_is_rfc4648",
    "C02_base64_is_rfc4648_pull"
   ],
   "note": "Output equals the independent bit-string specification in Rfc4648_Spec.v."
  },
  {
   "property": "C03",
   "status": "proved",
   "theorems": [
    "C03_base32_roundtrip",
    "C03_base32_is_rfc4648",
    "C03_base32_pull_decode"
   ],
   "note": "Any 32-character alphabet and padding character."
  },
  {
   "property": "C04",
   "status": "partial",
   "theorems": [
    "C04_base32_nopad_refuted",
    "C04_base32_nopad_truncated",
    "C04_base32_nopad_aligned_partial"
   ],
   "note": "REFUTED: without padding the last character is dropped for every length that is not a multiple of five (proved for all such inputs); the property holds for multiples of five."
  },
  {
   "property": "C05",
   "status": "proved",
   "theorems": [
    "C05_base16_roundtrip",
    "C05_base16_is_rfc4648",
    "C05_base16_both_cases"
   ],
   "note": ""
  },
  {
   "property": "C06",
   "status": "partial",
   "theorems": [
    "C06_base85_roundtrip_partial",
    "C06_base85_roundtrip_refuted",
    "C06_base85_empty_refuted"
   ],
   "note": "REFUTED: for every non-empty length that is a multiple of four flush repeats the last group; empty input reads an unwritten buffer. Holds for all other lengths."
  },
  {
   "property": "C07",
   "status": "proved",
   "theorems": [
    "C07_url_roundtrip",
    "C07_url_roundtrip_pull"
   ],
   "note": ""
  },
  {
   "property": "C47",
   "status": "proved",
   "theorems": [
    "C47_base85_decoder",
    "C47_base85_decoder_pull"
   ],
   "note": ""
  },
  {
   "property": "C08",
   "status": "proved",
   "theorems": [
    "C08_utf8_roundtrip"
   ],
   "note": ""
  },
  {
   "property": "C09",
   "status": "partial",
   "theorems": [
    "C09_utf8_shortest_refuted",
    "C09_utf8_shortest_partial"
   ],
   "note": "REFUTED: U+07FF and U+FFFF get an overlong form; every other code point gets the standard form."
  },
  {
   "property": "C48",
   "status": "partial",
   "theorems": [
    "C48_utf8_decoder_safe_refuted",
    "C48_utf8_decoder_safe_partial"
   ],
   "note": "REFUTED: lead byte 0xFE lets the accumulator overflow; holds for every input without 0xFE."
  },
  {
   "property": "C10",
   "status": "proved",
   "theorems": [
    "C10_compress_roundtrip",
    "C10_compress_monotone"
   ],
   "note": ""
  },
  {
   "property": "C11",
   "status": "partial",
   "theorems": [
    "C11_compress_signed_refuted",
    "C11_compress_signed_partial"
   ],
   "note": "REFUTED: the least 64 bit number overflows the negation (undefined behaviour); every other value round-trips."
  },
  {
   "property": "C13",
   "status": "proved",
   "theorems": [
    "C13_crc32_standard"
   ],
   "note": ""
  },
  {
   "property": "C14",
   "status": "proved",
   "theorems": [
    "C14_crc32_burst",
    "C14_crc32_bytes"
   ],
   "note": ""
  },
  {
   "property": "C12",
   "status": "proved",
   "theorems": [
    "C12_binary_roundtrip"
   ],
   "note": ""
  },
  {
   "property": "C49",
   "status": "partial",
   "theorems": [
    "C49_string_roundtrip_refuted",
    "C49_string_roundtrip_partial"
   ],
   "note": "REFUTED: storing advances the array twice per character, so every string of two or more characters is stored short and fails to load; strings of length 0 and 1 round-trip."
  },
  {
   "property": "C15",
   "status": "proved",
   "theorems": [
    "C15_lzw_roundtrip"
   ],
   "note": "LZWCompress / LZWDecompress; the pruning variants LZWp* are not modelled."
  },
  {
   "property": "C50",
   "status": "partial",
   "theorems": [
    "C50_second_stream_refuted"
   ],
   "note": "REFUTED: after the end mark the decompressor keeps the old dictionary and takes code 0 for the previous code, so a second stream is decoded wrongly."
  },
  {
   "property": "C44",
   "status": "proved",
   "theorems": [
    "C44_day_number",
    "C44_consecutive"
   ],
   "note": "Years up to 10^15 - 31 (no 64 bit overflow)."
  },
  {
   "property": "C45",
   "status": "partial",
   "theorems": [
    "C45_date_of_number_refuted",
    "C45_first_of_month_refuted",
    "C45_date_of_number_partial"
   ],
   "note": "REFUTED: PartsEx swaps day and year, and the first of February to December is reported as the day after the end of the month before. The day of the year is right."
  },
  {
   "property": "C51",
   "status": "partial",
   "theorems": [
    "C51_adjust_refuted",
    "C51_adjust_partial"
   ],
   "note": "REFUTED: day 366 from a March before a leap year is off by one and day 0 of January reads the month table out of bounds. Holds for any month >= 1 and days 1 to 365."
  },
  {
   "property": "C52",
   "status": "partial",
   "theorems": [
    "C52_unix_refuted",
    "C52_unix_partial"
   ],
   "note": "REFUTED: the offset from year 0 to 1970 is never added. To days and back gives the start of the day."
  },
  {
   "property": "C46",
   "status": "partial",
   "theorems": [
    "C46_arithmetic_partial",
    "C46_negative_refuted"
   ],
   "note": "REFUTED for negative results that have to be reduced (they come out positive). Exact and in lowest terms for every other result that fits."
  },
  {
   "property": "C53",
   "status": "proved",
   "theorems": [
    "C53_less_than"
   ],
   "note": "Cross products must fit 64 bits."
  },
  {
   "property": "C54",
   "status": "partial",
   "theorems": [
    "C54_floor_partial",
    "C54_floor_refuted"
   ],
   "note": "REFUTED for every negative fraction; proved for non-negative numbers."
  },
  {
   "property": "C55",
   "status": "partial",
   "theorems": [
    "C55_power_refuted",
    "C55_power_partial"
   ],
   "note": "REFUTED: powerNumber returns the running square instead of the accumulated product."
  },
  {
   "property": "C56",
   "status": "proved",
   "theorems": [
    "C56_gcd"
   ],
   "note": ""
  },
  {
   "property": "C40",
   "status": "proved",
   "theorems": [
    "C40_unsigned"
   ],
   "note": ""
  },
  {
   "property": "C41",
   "status": "proved",
   "theorems": [
    "C41_lines",
    "C41_join",
    "C41_unique"
   ],
   "note": "Separator not empty."
  },
  {
   "property": "C57",
   "status": "partial",
   "theorems": [
    "C57_signed_partial",
    "C57_signed_refuted"
   ],
   "note": "REFUTED for the smallest value only (negation is undefined behaviour, both when formatting and when parsing); proved for all others."
  },
  {
   "property": "C58",
   "status": "partial",
   "theorems": [
    "C58_overflow_refuted"
   ],
   "note": "REFUTED: the value is stored modulo 2^64 and success is reported."
  },
  {
   "property": "C20",
   "status": "proved",
   "theorems": [
    "C20_deque",
    "C20_queue",
    "C20_stack"
   ],
   "note": "Any operation history on a fresh deque; the list answers, no undefined behaviour, the destructor ends every item exactly once. Assumes allocation and item constructors do not throw."
  },
  {
   "property": "C59",
   "status": "partial",
   "theorems": [
    "C59_copy_refuted"
   ],
   "note": "REFUTED: the compiler-generated copy allocates a raw block and copies the indexes; reading or destroying the copy of any non-empty deque is undefined behaviour."
  },
  {
   "property": "C21",
   "status": "proved",
   "theorems": [
    "C21_sort"
   ],
   "note": "All strict weak orderings."
  },
  {
   "property": "C22",
   "status": "partial",
   "theorems": [
    "C22_top_partial",
    "C22_pop_refuted"
   ],
   "note": "REFUTED: pop calls trunc with the number of items to keep instead of the number to remove, so it is wrong for every queue except one of exactly two items. Proved: after any pushes top is a largest item."
  },
  {
   "property": "C60",
   "status": "proved",
   "theorems": [
    "C60_heap"
   ],
   "note": ""
  },
  {
   "property": "C61",
   "status": "partial",
   "theorems": [
    "C61_pop_at_refuted"
   ],
   "note": "REFUTED: pop(at) sifts down from the root instead of from the position."
  },
  {
   "property": "C23",
   "status": "partial",
   "theorems": [
    "C23_copy_refuted",
    "C23_erase_last_refuted",
    "C62_list",
    "C62_assign"
   ],
   "note": "REFUTED: the copy constructor reverses the order (linkedList.h:108-111); removing the last item through an iterator leaves the tail pointer on the destroyed node, so the next append or getLast uses freed memory (linkedList.h:251-258). The part that holds is C62."
  },
  {
   "property": "C62",
   "status": "proved",
   "theorems": [
    "C62_list",
    "C62_erase_iterator",
    "C62_assign"
   ],
   "note": "Nodes in an explicit memory with destruction; every admissible history gives the answers of the plain list and never touches a destroyed node."
  },
  {
   "property": "C63",
   "status": "partial",
   "theorems": [
    "C63_getLast_const_refuted"
   ],
   "note": "REFUTED: the const overload returns the first item (linkedList.h:279-283)."
  },
  {
   "property": "C64",
   "status": "partial",
   "theorems": [
    "C64_returned_iterator_refuted"
   ],
   "note": "REFUTED: returned iterators have no predecessor, so removal through the iterator returned by add removes the first item of the list (linkedList.h:229, 252)."
  },
  {
   "property": "C65",
   "status": "partial",
   "theorems": [
    "C65_self_assign_refuted"
   ],
   "note": "REFUTED: operator= clears first, so self-assignment gives an empty list (linkedList.h:126-131)."
  },
  {
   "property": "C25",
   "status": "partial",
   "theorems": [
    "C25_first_write_refuted",
    "C25_read_overflow_refuted",
    "C66_memfile"
   ],
   "note": "REFUTED: the constructor leaves the append flag uninitialised, so the first write on a new file reads an indeterminate value (memfile.h:38, memfile.tcc:37); a read whose end passes 2^64 copies outside of the buffer. The part that holds is C66 and C67."
  },
  {
   "property": "C66",
   "status": "proved",
   "theorems": [
    "C66_memfile",
    "C66_write_read"
   ],
   "note": "All histories of eleven operations, 64 bit wrapping modelled; bytes of a gap left by seeking past the end are uninitialised in the code and unspecified in the specification."
  },
  {
   "property": "C67",
   "status": "proved",
   "theorems": [
    "C67_append"
   ],
   "note": ""
  },
  {
   "property": "C68",
   "status": "partial",
   "theorems": [
    "C68_append_position_refuted"
   ],
   "note": "REFUTED: the read position is advanced by the length of the appended data (memfile.tcc:44), for every file with unread bytes."
  },
  {
   "property": "C69",
   "status": "partial",
   "theorems": [
    "C69_close_refuted"
   ],
   "note": "REFUTED: write never looks at the readOnly flag (memfile.tcc:35-46)."
  },
  {
   "property": "C70",
   "status": "proved",
   "theorems": [
    "C70_textfile",
    "C70_textfile_at"
   ],
   "note": ""
  },
  {
   "property": "C71",
   "status": "partial",
   "theorems": [
    "C71_seek_past_end_refuted"
   ],
   "note": "REFUTED: the remaining length wraps around (memfile.cpp:18), every read behind the end is out of bounds."
  },
  {
   "property": "C72",
   "status": "proved",
   "theorems": [
    "C72_iobuffer"
   ],
   "note": ""
  },
  {
   "property": "C73",
   "status": "proved",
   "theorems": [
    "C73_reserved"
   ],
   "note": ""
  },
  {
   "property": "C74",
   "status": "partial",
   "theorems": [
    "C74_write_over_input_refuted"
   ],
   "note": "REFUTED: C74_write_over_input_refuted (when the input fills the buffer, the next small write overwrites it); true when room is left: C72_iobuffer"
  },
  {
   "property": "C75",
   "status": "proved",
   "theorems": [
    "C75_putback"
   ],
   "note": ""
  },
  {
   "property": "C76",
   "status": "partial",
   "theorems": [
    "C76_putback_one_refuted"
   ],
   "note": "REFUTED: C76_putback_one_refuted (after reading the first byte it cannot be put back)"
  },
  {
   "property": "C77",
   "status": "partial",
   "theorems": [
    "C77_putback_output_refuted"
   ],
   "note": "REFUTED: C77_putback_output_refuted; true right after a flush: C75_putback"
  },
  {
   "property": "C78",
   "status": "partial",
   "theorems": [
    "C78_peek_count_refuted"
   ],
   "note": "REFUTED: C78_peek_count_refuted"
  },
  {
   "property": "C26",
   "status": "partial",
   "theorems": [
    "C26_partial_acceptance_refuted",
    "C79_write_buffer"
   ],
   "note": "REFUTED: C26_partial_acceptance_refuted (buffer.h:418 computes wrpos -= x, so items are lost when the sink takes a part of a full buffer); true for whole blocks: C79_write_buffer, C79_whole_sink"
  },
  {
   "property": "C27",
   "status": "proved",
   "theorems": [
    "C27_read_buffer",
    "C27_read_buffer_throwing"
   ],
   "note": ""
  },
  {
   "property": "C79",
   "status": "proved",
   "theorems": [
    "C79_write_buffer",
    "C79_whole_sink"
   ],
   "note": ""
  },
  {
   "property": "C80",
   "status": "partial",
   "theorems": [
    "C80_peek_n_refuted"
   ],
   "note": "REFUTED: buffer.h:471 indexes from the start of the array"
  },
  {
   "property": "C81",
   "status": "partial",
   "theorems": [
    "C81_end_refuted",
    "C27_read_buffer_throwing"
   ],
   "note": "REFUTED: C81_end_refuted for sources that return 0 at their end; true for sources that throw: C27_read_buffer_throwing"
  },
  {
   "property": "C82",
   "status": "partial",
   "theorems": [
    "C82_peek_hang_refuted"
   ],
   "note": "REFUTED: buffer.h:468-470 loops for ever"
  },
  {
   "property": "C17",
   "status": "proved",
   "theorems": [
    "C17_map_refines_finite_map"
   ],
   "note": "Every history of insert, replace, erase, find, operator[], operator(), size, empty, clear, walk, seek and erase by iterator answers as a finite map; hypothesis: fewer than 2^44 entries at a time (the 64-entry path stack of the code)."
  },
  {
   "property": "C18",
   "status": "proved",
   "theorems": [
    "C18_map_balanced"
   ],
   "note": ""
  },
  {
   "property": "C19",
   "status": "proved",
   "theorems": [
    "C19_map_iteration"
   ],
   "note": ""
  },
  {
   "property": "C83",
   "status": "proved",
   "theorems": [
    "C83_map_copy"
   ],
   "note": ""
  },
  {
   "property": "C84",
   "status": "partial",
   "theorems": [
    "C84_map_self_assignment_refuted"
   ],
   "note": "REFUTED: self-assignment empties the map."
  },
  {
   "property": "C85",
   "status": "proved",
   "theorems": [
    "C85_map_union_and_removal"
   ],
   "note": ""
  },
  {
   "property": "C86",
   "status": "partial",
   "theorems": [
    "C86_map_difference_refuted"
   ],
   "note": "REFUTED: a - b is always empty."
  },
  {
   "property": "C87",
   "status": "proved",
   "theorems": [
    "C87_inserted_entry"
   ],
   "note": ""
  },
  {
   "property": "C88",
   "status": "partial",
   "theorems": [
    "C88_inserted_iterator_refuted"
   ],
   "note": "REFUTED: after a double rotation the recorded path is wrong."
  },
  {
   "property": "C89",
   "status": "partial",
   "theorems": [
    "C89_iterator_order_refuted"
   ],
   "note": "REFUTED: reads an unset slot when one entry is an ancestor of the other."
  },
  {
   "property": "C90",
   "status": "proved",
   "theorems": [
    "C90_map_compare"
   ],
   "note": ""
  },
  {
   "property": "C91",
   "status": "partial",
   "theorems": [
    "C91_map_compare_values_refuted"
   ],
   "note": "REFUTED: values are not compared."
  },
  {
   "property": "C92",
   "status": "proved",
   "theorems": [
    "C92_map_for_each"
   ],
   "note": ""
  },
  {
   "property": "C93",
   "status": "partial",
   "theorems": [
    "C93_approximate_count_refuted"
   ],
   "note": "REFUTED: always dereferences a null pointer."
  },
  {
   "property": "C94",
   "status": "partial",
   "theorems": [
    "C94_basic_tree_size_refuted"
   ],
   "note": "REFUTED: removal by iterator decrements only when the height is unchanged; clear never resets the number."
  },
  {
   "property": "C32",
   "status": "proved",
   "theorems": [
    "C32_mutual_exclusion"
   ],
   "note": "One step is one shared access, sequentially consistent memory; any number of threads; the locking thread is the one that unlocks (C98 is the other case)."
  },
  {
   "property": "C33",
   "status": "proved",
   "theorems": [
    "C33_arrival_order",
    "C33_nobody_stranded"
   ],
   "note": ""
  },
  {
   "property": "C95",
   "status": "proved",
   "theorems": [
    "C95_idle_lock_is_free"
   ],
   "note": ""
  },
  {
   "property": "C96",
   "status": "proved",
   "theorems": [
    "C96_no_dangling_slot"
   ],
   "note": ""
  },
  {
   "property": "C97",
   "status": "partial",
   "theorems": [
    "C97_wake_up_after_end_refuted",
    "C96_no_dangling_slot"
   ],
   "note": "REFUTED: unlock keeps only a plain pointer to the sleeper of the next owner; true when no thread ends: C96_no_dangling_slot."
  },
  {
   "property": "C98",
   "status": "partial",
   "theorems": [
    "C98_hand_over_refuted",
    "C32_mutual_exclusion"
   ],
   "note": "REFUTED: the new slot of the same thread has the address of the owning one; true when the locking thread unlocks: C32_mutual_exclusion."
  },
  {
   "property": "C34",
   "status": "partial",
   "theorems": [
    "fastLockR_excludes_refuted",
    "fastLockR_excludes"
   ],
   "note": "REFUTED: after unlockSaveRecusion the lock still names its old owner, which can re-enter while another thread takes the lock; true without unlockSaveRecusion (C101)"
  },
  {
   "property": "C99",
   "status": "proved",
   "theorems": [
    "fastLockR_counts",
    "fastLockR_reenters"
   ],
   "note": ""
  },
  {
   "property": "C100",
   "status": "partial",
   "theorems": [
    "fastLockR_restore_refuted"
   ],
   "note": "REFUTED: lockRestoreRecursion(count,true) does not write the owner, so unlock does nothing and the lock stays taken"
  },
  {
   "property": "C101",
   "status": "proved",
   "theorems": [
    "fastLockR_excludes"
   ],
   "note": ""
  },
  {
   "property": "C35",
   "status": "proved",
   "theorems": [
    "levelLock_one_level",
    "rwLock_writer_alone"
   ],
   "note": ""
  },
  {
   "property": "C36",
   "status": "partial",
   "theorems": [
    "levelLock_usable_refuted",
    "levelLock_free_if_never_waited"
   ],
   "note": "REFUTED: qbot is never cleared, so once a thread has waited the lock can never be obtained again after all have left; true if nobody ever had to wait"
  },
  {
   "property": "C102",
   "status": "proved",
   "theorems": [
    "levelLock_in_order"
   ],
   "note": ""
  },
  {
   "property": "C103",
   "status": "partial",
   "theorems": [
    "levelLock_cancel_refuted"
   ],
   "note": "REFUTED: cancelAsync does not update qbot, a later lock writes through a dead slot"
  },
  {
   "property": "C37",
   "status": "proved",
   "theorems": [
    "semaphore_conserves",
    "semaphore_loses_nothing"
   ],
   "note": "locks without timeout; timeout and cancel are C107 and C108"
  },
  {
   "property": "C104",
   "status": "proved",
   "theorems": [
    "syncPt_refines_queue"
   ],
   "note": ""
  },
  {
   "property": "C105",
   "status": "partial",
   "theorems": [
    "syncPt_reset_refuted"
   ],
   "note": "REFUTED: reset does not clear the charged flag, so add refuses the slot for ever"
  },
  {
   "property": "C106",
   "status": "partial",
   "theorems": [
    "syncPt_remove_refuted"
   ],
   "note": "REFUTED: a slot that was never registered is reported as removed"
  },
  {
   "property": "C107",
   "status": "partial",
   "theorems": [
    "semaphore_cancel_refuted"
   ],
   "note": "REFUTED: a request granted at once is not charged, remove says true and the permit is lost"
  },
  {
   "property": "C108",
   "status": "partial",
   "theorems": [
    "semaphore_timeout_refuted"
   ],
   "note": "REFUTED: the slot of a timed-out lock stays in the queue and a later unlock uses it after its end"
  },
  {
   "property": "C38",
   "status": "proved",
   "theorems": [
    "gate_no_lost_wakeup"
   ],
   "note": ""
  },
  {
   "property": "C109",
   "status": "partial",
   "theorems": [
    "gate_closed_means_closed_refuted"
   ],
   "note": "REFUTED: open() sets the state and later notifies everybody; a thread that begins to wait after a close in between is let through"
  },
  {
   "property": "C39",
   "status": "proved",
   "theorems": [
    "promise_delivers_once"
   ],
   "note": "observers registered once each; value part for histories without cancel"
  },
  {
   "property": "C110",
   "status": "partial",
   "theorems": [
    "promise_drop_refuted"
   ],
   "note": "REFUTED: cancel calls the current observers but stores no result, later observers are never called"
  },
  {
   "property": "C111",
   "status": "proved",
   "theorems": [
    "promise_unregister"
   ],
   "note": ""
  },
  {
   "property": "C112",
   "status": "partial",
   "theorems": [
    "promise_wait_refuted"
   ],
   "note": "REFUTED: Ntf::resolve makes the result visible and then reads its member thread; wait may have returned in between"
  },
  {
   "property": "C24",
   "status": "proved",
   "theorems": [
    "btree_refines_set"
   ],
   "note": "repeated keys: see C113; iterations from a key of the tree: see C115"
  },
  {
   "property": "C113",
   "status": "partial",
   "theorems": [
    "btree_add_again_refuted",
    "btree_add_again_small"
   ],
   "note": "REFUTED: a key that is the middle one of a full node below the root is added a second time; btree_add_again_small proves the property for trees of one node"
  },
  {
   "property": "C114",
   "status": "partial",
   "theorems": [
    "btree_remove_refuted",
    "btree_remove_small"
   ],
   "note": "REFUTED: removal of the only key keeps the size, a rotation between leaves reads a null pointer, a key of an inner node stays and its successor is lost; btree_remove_small proves the property for trees of one node with at least two keys"
  },
  {
   "property": "C115",
   "status": "partial",
   "theorems": [
    "btree_begin_from_refuted",
    "btree_refines_set"
   ],
   "note": "REFUTED: BeginFrom reads a null pointer when the key is in an inner node; for keys not in the tree see btree_refines_set"
  },
  {
   "property": "C116",
   "status": "partial",
   "theorems": [
    "btree_previous_refuted"
   ],
   "note": "REFUTED: Previous reads a null pointer when the current key is in an inner node"
  },
  {
   "property": "C29",
   "status": "proved",
   "theorems": [
    "refcnt_destroys_unreferenced"
   ],
   "note": "single thread; the allowed assignments are those of psafe; the other ones are C117 and C118"
  },
  {
   "property": "C117",
   "status": "partial",
   "theorems": [
    "refcnt_self_assign_refuted"
   ],
   "note": "REFUTED: self-assignment makes the pointer null and leaks the object"
  },
  {
   "property": "C118",
   "status": "partial",
   "theorems": [
    "refcnt_assign_member_refuted",
    "refcnt_destroys_unreferenced"
   ],
   "note": "REFUTED: the source pointer is read after it was destroyed with the old object; holds when the old object has another reference (psafe in refcnt_destroys_unreferenced)"
  },
  {
   "property": "C119",
   "status": "partial",
   "theorems": [
    "refcnt_create_refuted",
    "refcnt_destroys_unreferenced"
   ],
   "note": "REFUTED: create destroys the object whatever its counter is; refcnt_destroys_unreferenced covers create on a null pointer"
  },
  {
   "property": "C31",
   "status": "proved",
   "theorems": [
    "weakref_withdrawn",
    "weakref_runs"
   ],
   "note": "one control block; the counting of references to the block itself is C29"
  },
  {
   "property": "C120",
   "status": "proved",
   "theorems": [
    "weakref_setnull_returns"
   ],
   "note": ""
  },
  {
   "property": "C121",
   "status": "partial",
   "theorems": [
    "weakref_unlock_after_exit_refuted",
    "weakref_runs"
   ],
   "note": "REFUTED: the pending wakeUp of an unlock uses the sleeping object of a thread that has ended; weakref_runs proves it safe while that thread runs"
  },
  {
   "property": "C30",
   "status": "proved",
   "theorems": [
    "sharedptr_destroys_unreferenced",
    "sharedptr_ring_is_owners",
    "sharedptr_self_assign"
   ],
   "note": "Histories of PNull, PNew, PCopy, PAssign, PDrop, PShared (on non-null pointers). Assigning a pointer to itself changes nothing."
  },
  {
   "property": "C122",
   "status": "proved",
   "theorems": [
    "sharedptr_redirect"
   ],
   "note": ""
  },
  {
   "property": "C123",
   "status": "partial",
   "theorems": [
    "sharedptr_assign_null_refuted",
    "sharedptr_ring_is_owners"
   ],
   "note": "REFUTED: two null pointers that are each linked to another null pointer are not joined by the assignment. For non-null pointers the claim follows from sharedptr_ring_is_owners."
  },
  {
   "property": "C124",
   "status": "partial",
   "theorems": [
    "sharedptr_clear_refuted"
   ],
   "note": "REFUTED: the inherited clear destroys the object although others refer to it."
  },
  {
   "property": "C125",
   "status": "partial",
   "theorems": [
    "sharedptr_swap_refuted"
   ],
   "note": "REFUTED: the inherited swap exchanges the objects but not the rings."
  },
  {
   "property": "C126",
   "status": "partial",
   "theorems": [
    "sharedptr_assign_member_refuted",
    "sharedptr_destroys_unreferenced"
   ],
   "note": "REFUTED: the source is destroyed with the old object before it is copied. The positive theorem covers assignments that do not destroy the two pointers."
  },
  {
   "property": "C28",
   "status": "proved",
   "theorems": [
    "clusteralloc_history",
    "clusteralloc_clear"
   ],
   "note": "The memory of the multiclusters themselves and the AVL trees are abstracted; addresses are unbounded."
  },
  {
   "property": "C127",
   "status": "partial",
   "theorems": [
    "clusteralloc_owner_free_refuted",
    "clusteralloc_history"
   ],
   "note": "REFUTED: the owner computes the index with the size that was asked for instead of the block size. The positive theorem covers sizes that need no rounding."
  },
  {
   "property": "C128",
   "status": "partial",
   "theorems": [
    "clusteralloc_zero_refuted"
   ],
   "note": "REFUTED: the block size becomes zero and is divided by."
  },
  {
   "property": "C42",
   "status": "partial",
   "theorems": [
    "json_roundtrip_partial",
    "json_escaped_roundtrip_partial",
    "json_roundtrip_refuted",
    "json_smallest_refuted"
   ],
   "note": "REFUTED: the text of a one-digit number alone is rejected by the parser and -2^63 cannot be serialised (signed overflow). Proved for all other values without floating point numbers, of any nesting, in any context. Floating point numbers are not covered."
  },
  {
   "property": "C129",
   "status": "proved",
   "theorems": [
    "json_parse_text"
   ],
   "note": "the texts excluded by the statement are the subject of C132 and C42"
  },
  {
   "property": "C130",
   "status": "proved",
   "theorems": [
    "json_serialize_text"
   ],
   "note": ""
  },
  {
   "property": "C131",
   "status": "partial",
   "theorems": [
    "json_escaped_text_partial",
    "json_escaped_roundtrip_partial",
    "json_escaped_text_refuted"
   ],
   "note": "REFUTED for every code point above U+FFFF: it is written with five or six hexadecimal digits and reads back as another string. Proved for strings of the basic plane."
  },
  {
   "property": "C132",
   "status": "partial",
   "theorems": [
    "json_parse_text",
    "json_surrogates_refuted",
    "json_overlong_refuted"
   ],
   "note": "REFUTED: pairs of surrogates are read as two characters, U+07FF as an overlong form. json_parse_text covers all other code points of one unit."
  },
  {
   "property": "C133",
   "status": "partial",
   "theorems": [
    "json_big_integer_refuted",
    "json_parse_text"
   ],
   "note": "REFUTED: every integer text from 2^63 with at most 22 digits is silently read as another integer. json_parse_text covers integers of 64 bits."
  },
  {
   "property": "C134",
   "status": "partial",
   "theorems": [
    "json_parse_ends_partial",
    "json_parse_safe_refuted"
   ],
   "note": "REFUTED: -9223372036854775808 overflows a signed integer. The parser always ends, and inputs without a minus sign never have undefined behaviour."
  },
  {
   "property": "C135",
   "status": "partial",
   "theorems": [
    "json_object_map_partial",
    "json_object_clear_refuted"
   ],
   "note": "REFUTED for clear: it leaves the counter of members alone, so that length (and equality) are wrong afterwards. Proved for all histories without clear. The AVL tree is taken as the ordered list it is proved to be in Avl_Model."
  },
  {
   "property": "C136",
   "status": "partial",
   "theorems": [
    "json_add_unnamed_refuted"
   ],
   "note": "REFUTED: the pattern \"unnamed%l\" has no parameter, so that all such values get the same name and only the first is kept."
  },
  {
   "property": "C137",
   "status": "partial",
   "theorems": [
    "json_equality_partial",
    "json_equality_reflexive",
    "json_equality_refuted"
   ],
   "note": "REFUTED: \"\" and 0 equal null, false and [] but not the other way round; members of objects are compared by address. Proved for values without objects, 0 and \"\" against any value; reflexivity proved for all."
  },
  {
   "property": "C138",
   "status": "partial",
   "theorems": [
    "json_clone_partial",
    "json_clone_refuted"
   ],
   "note": "REFUTED: an object with a member other than null, booleans, 0 and \"\" does not equal its clone. The clone is always the same JSON value."
  },
  {
   "property": "C139",
   "status": "partial",
   "theorems": [
    "json_path_finds",
    "json_path_missing_refuted",
    "json_path_name_refuted",
    "json_path_null_name_refuted"
   ],
   "note": "REFUTED for steps that lead nowhere: an index outside of an array is undefined on constant values, names are looked up in the first item of arrays. Proved: if the steps lead to a value, it is found."
  },
  {
   "property": "C140",
   "status": "proved",
   "theorems": [
    "json_path_order"
   ],
   "note": ""
  },
  {
   "property": "C141",
   "status": "proved",
   "theorems": [
    "json_path_copy"
   ],
   "note": "addresses and sizes are unbounded numbers"
  },
  {
   "property": "C142",
   "status": "partial",
   "theorems": [
    "json_path_delete_refuted"
   ],
   "note": "REFUTED: the loop that computes the size tests the wrong variable and never ends."
  },
  {
   "property": "C16",
   "status": "proved",
   "theorems": [
    "C16_md5_chunking",
    "C16_sha1_chunking"
   ],
   "note": "MD5 pieces below 2^31 - 64 bytes; larger blocks are the subject of C146"
  },
  {
   "property": "C143",
   "status": "proved",
   "theorems": [
    "md5_standard"
   ],
   "note": "pieces below 2^31 - 64 bytes each; larger blocks are the subject of C146"
  },
  {
   "property": "C144",
   "status": "proved",
   "theorems": [
    "sha1_standard"
   ],
   "note": ""
  },
  {
   "property": "C145",
   "status": "proved",
   "theorems": [
    "md5_hexdigest"
   ],
   "note": ""
  },
  {
   "property": "C146",
   "status": "partial",
   "theorems": [
    "md5_large_block_refuted",
    "md5_standard"
   ],
   "note": "REFUTED: the length is converted to int, so blocks of 2^31 to 2^32 - 1 bytes are passed on but not hashed; md5_standard gives the smaller ones"
  },
  {
   "property": "C147",
   "status": "partial",
   "theorems": [
    "md5_flush_twice_refuted",
    "md5_second_finish"
   ],
   "note": "REFUTED: the second flush replaces the digest by that of the padded message"
  },
  {
   "property": "C148",
   "status": "proved",
   "theorems": [
    "formatter_shows_pattern"
   ],
   "note": "pattern language and meaning in TextFormat_Spec.v; texts given by pointer are assumed to stay alive; character type char; floating point arguments and number formatter objects are not modelled"
  },
  {
   "property": "C149",
   "status": "proved",
   "theorems": [
    "documented_fields"
   ],
   "note": ""
  },
  {
   "property": "C150",
   "status": "proved",
   "theorems": [
    "field_width"
   ],
   "note": ""
  },
  {
   "property": "C151",
   "status": "proved",
   "theorems": [
    "any_pattern_is_safe"
   ],
   "note": ""
  },
  {
   "property": "C152",
   "status": "partial",
   "theorems": [
    "empty_pattern_refuted",
    "empty_pattern_partial"
   ],
   "note": "REFUTED: texts given by pointer are left out (empty_pattern_refuted says exactly what is shown); true when there are none (empty_pattern_partial)"
  },
  {
   "property": "C153",
   "status": "partial",
   "theorems": [
    "adjacent_parameters_refuted",
    "adjacent_parameters_partial"
   ],
   "note": "REFUTED: the percent sign of the second placeholder is taken as the end of the first, %i%j shows argument i and the digits j; %i%%j shows both"
  },
  {
   "property": "C154",
   "status": "partial",
   "theorems": [
    "many_arguments_refuted",
    "formatter_shows_pattern"
   ],
   "note": "REFUTED: the 31st argument throws; up to 30 work (formatter_shows_pattern)"
  },
  {
   "property": "C155",
   "status": "partial",
   "theorems": [
    "conditional_parameter_refuted"
   ],
   "note": "REFUTED: not implemented, the pattern text is shown"
  },
  {
   "property": "C156",
   "status": "partial",
   "theorems": [
    "smallest_number_refuted",
    "numbers_shown_partial"
   ],
   "note": "REFUTED: negating the smallest int or 64 bit integer is undefined; all others are right"
  },
  {
   "property": "C43",
   "status": "partial",
   "theorems": [
    "binjson_roundtrip_partial",
    "binjson_array_partial",
    "binjson_positive_refuted",
    "binjson_string_refuted",
    "binjson_nested_refuted"
   ],
   "note": "REFUTED: positive numbers change sign, strings outside the table become empty, an array inside an array ends both; true for null, booleans, numbers up to 0, table and empty strings and objects of these (binjson_roundtrip_partial), and for one array of them except that its end mark is left (binjson_array_partial)"
  },
  {
   "property": "C157",
   "status": "partial",
   "theorems": [
    "binjson_reader_refuted"
   ],
   "note": "REFUTED: the codes for popping and for stack references are obeyed when the stack has no such value"
  },
  {
   "property": "C158",
   "status": "proved",
   "theorems": [
    "binjson_reading_ends"
   ],
   "note": ""
  },
  {
   "property": "C159",
   "status": "proved",
   "theorems": [
    "array_refines_list"
   ],
   "note": ""
  },
  {
   "property": "C160",
   "status": "proved",
   "theorems": [
    "array_exception_safe"
   ],
   "note": ""
  },
  {
   "property": "C161",
   "status": "partial",
   "theorems": [
    "insert_exception_refuted",
    "erase_exception_refuted",
    "array_exception_safe"
   ],
   "note": "REFUTED: insertion swallows the exception and the array counts items that do not exist; erasing leaves destroyed items in the array; true at the end of the array (array_exception_safe)"
  },
  {
   "property": "C162",
   "status": "partial",
   "theorems": [
    "add_own_item_refuted",
    "add_own_item_partial",
    "insert_own_item_refuted",
    "append_itself_refuted"
   ],
   "note": "REFUTED: without room the item is read from freed memory, insertion takes the neighbour item, appending to itself never ends; adding with room is right"
  },
  {
   "property": "C163",
   "status": "partial",
   "theorems": [
    "erase_count_refuted",
    "array_refines_list"
   ],
   "note": "REFUTED: position plus count wraps around 2^64 and is not corrected; array_refines_list covers all smaller counts"
  },
  {
   "property": "C164",
   "status": "partial",
   "theorems": [
    "insert_nothing_refuted",
    "array_refines_list"
   ],
   "note": "REFUTED: every following item is constructed over itself and destroyed; at the end of the array it is right (array_refines_list)"
  },
  {
   "property": "C165",
   "status": "partial",
   "theorems": [
    "assign_itself_refuted"
   ],
   "note": "REFUTED: the array becomes empty"
  },
  {
   "property": "C166",
   "status": "proved",
   "theorems": [
    "array_copies"
   ],
   "note": ""
  },
  {
   "property": "C167",
   "status": "proved",
   "theorems": [
    "adding_is_linear"
   ],
   "note": ""
  },
  {
   "property": "C168",
   "status": "proved",
   "theorems": [
    "reserved_room_suffices"
   ],
   "note": ""
  },
  {
   "property": "C169",
   "status": "proved",
   "theorems": [
    "expression_items"
   ],
   "note": ""
  },
  {
   "property": "C170",
   "status": "proved",
   "theorems": [
    "for_each_visits"
   ],
   "note": ""
  },
  {
   "property": "C171",
   "status": "proved",
   "theorems": [
    "find_first"
   ],
   "note": ""
  },
  {
   "property": "C172",
   "status": "proved",
   "theorems": [
    "find_from_position",
    "find_array"
   ],
   "note": ""
  },
  {
   "property": "C173",
   "status": "partial",
   "theorems": [
    "find_in_part_refuted",
    "find_from_refuted",
    "find_first"
   ],
   "note": "REFUTED: a nonempty part of a composed expression counts as empty, so nothing is ever found in it; searching a composed expression from a position goes through such a part. Expressions without parts are right (find_first)"
  },
  {
   "property": "C174",
   "status": "proved",
   "theorems": [
    "find_last"
   ],
   "note": "for expressions without parts of composed arrays; parts are refuted under C173"
  },
  {
   "property": "C175",
   "status": "partial",
   "theorems": [
    "find_last_array_refuted",
    "find_last_array_missed_refuted"
   ],
   "note": "REFUTED: an array standing at the end is reported at the position of its last item; an earlier occurrence is missed"
  },
  {
   "property": "C176",
   "status": "proved",
   "theorems": [
    "compare_lexicographic",
    "compare_equal"
   ],
   "note": ""
  },
  {
   "property": "C177",
   "status": "proved",
   "theorems": [
    "split_parts"
   ],
   "note": ""
  },
  {
   "property": "C178",
   "status": "partial",
   "theorems": [
    "split_expression_refuted",
    "split_parts"
   ],
   "note": "REFUTED: a composed expression is always given as a single part; plain arrays are right (split_parts)"
  },
  {
   "property": "C179",
   "status": "proved",
   "theorems": [
    "trim_removes"
   ],
   "note": ""
  },
  {
   "property": "C180",
   "status": "proved",
   "theorems": [
    "parts_of_arrays",
    "parts_are_sound"
   ],
   "note": ""
  },
  {
   "property": "C181",
   "status": "partial",
   "theorems": [
    "mid_large_count_refuted",
    "crop_large_count_refuted",
    "parts_of_arrays"
   ],
   "note": "REFUTED: when position + count passes 2^64 the part is longer than the array; without that it is right (parts_of_arrays)"
  },
  {
   "property": "C182",
   "status": "proved",
   "theorems": [
    "iterators_give_all_items"
   ],
   "note": ""
  },
  {
   "property": "C183",
   "status": "partial",
   "theorems": [
    "seek_forward_partial",
    "seek_forward_refuted",
    "seek_backward_refuted"
   ],
   "note": "REFUTED: backward by any number moves in front of the first item; a large offset forward moves back. Forward without passing 2^64 is right (seek_forward_partial)"
  },
  {
   "property": "C184",
   "status": "partial",
   "theorems": [
    "for_each_range_refuted"
   ],
   "note": "REFUTED: when the range passes the end, length - count items are visited instead of the ones left"
  },
  {
   "property": "C185",
   "status": "partial",
   "theorems": [
    "for_each_concat_refuted",
    "for_each_repeated_refuted",
    "for_each_visits"
   ],
   "note": "REFUTED: a part of a concatenation that starts inside of the first half loses items at the end; repeating an empty array divides by zero. The rest is right (for_each_visits)"
  },
  {
   "property": "C186",
   "status": "proved",
   "theorems": [
    "slist_is_a_stack"
   ],
   "note": "The hypothesis tame states how many pops of the list may finish while one pop runs; C187 shows it is needed."
  },
  {
   "property": "C187",
   "status": "partial",
   "theorems": [
    "slist_many_pops_refuted",
    "slist_is_a_stack"
   ],
   "note": "REFUTED: two threads are enough to hand out an item twice, for every alignment."
  },
  {
   "property": "C188",
   "status": "partial",
   "theorems": [
    "slist_take_refuted"
   ],
   "note": "REFUTED: the cookie of the list is taken over with the items."
  },
  {
   "property": "C189",
   "status": "partial",
   "theorems": [
    "slist_swap_refuted",
    "slist_swap_if_refuted",
    "slist_swap_if_matching"
   ],
   "note": "REFUTED: swap loses an item pushed meanwhile; swapWhenTopIs overwrites its argument on a mismatch. Positive: with the right top it exchanges the lists."
  },
  {
   "property": "C190",
   "status": "proved",
   "theorems": [
    "spin_exclusive",
    "spin_gets_free_lock"
   ],
   "note": ""
  },
  {
   "property": "C191",
   "status": "partial",
   "theorems": [
    "spin_steal_refuted"
   ],
   "note": "REFUTED: for any three threads two thieves both succeed."
  },
  {
   "property": "C192",
   "status": "proved",
   "theorems": [
    "spin_recursive_exclusive"
   ],
   "note": ""
  },
  {
   "property": "C193",
   "status": "proved",
   "theorems": [
    "mutex_exclusive"
   ],
   "note": ""
  },
  {
   "property": "C194",
   "status": "proved",
   "theorems": [
    "mutex_no_lost_waiter"
   ],
   "note": ""
  },
  {
   "property": "C195",
   "status": "proved",
   "theorems": [
    "mutex_timeout_honest"
   ],
   "note": ""
  },
  {
   "property": "C196",
   "status": "partial",
   "theorems": [
    "mutex_try_refuted",
    "mutex_try_recursive_refuted",
    "mutex_exclusive"
   ],
   "note": "REFUTED: on a new mutex tryLock leaves the counter 0, so that a nested lock is undone by one unlock and two threads hold the mutex; tryLock by the holder fails. Positive: on a mutex used before tryLock is exclusive (mutex_exclusive with r = 1)."
  },
  {
   "property": "C197",
   "status": "proved",
   "theorems": [
    "filter_read"
   ],
   "note": ""
  },
  {
   "property": "C198",
   "status": "proved",
   "theorems": [
    "filter_write"
   ],
   "note": ""
  },
  {
   "property": "C199",
   "status": "partial",
   "theorems": [
    "filter_block_write_refuted"
   ],
   "note": "REFUTED: with writeAll set only the first item of two or more is written (the loop condition is inverted). The overload for constant items is right (filter_write)."
  },
  {
   "property": "C200",
   "status": "partial",
   "theorems": [
    "filter_block_read_refuted",
    "filter_block_read_partial"
   ],
   "note": "REFUTED: with too few items the call is undefined; with readAll only one item is read; after peek the peeked item is lost. Positive: without peek, without readAll and with enough items the array is filled (filter_block_read_partial)."
  },
  {
   "property": "C201",
   "status": "proved",
   "theorems": [
    "sort_filter",
    "sort_filter_iter"
   ],
   "note": "Limited memory of at least one item."
  },
  {
   "property": "C202",
   "status": "partial",
   "theorems": [
    "sort_filter_copy_refuted"
   ],
   "note": "REFUTED: a copy gives its largest item as many times as it holds items; an item beyond the limited memory is lost."
  },
  {
   "property": "C203",
   "status": "proved",
   "theorems": [
    "merge_concat"
   ],
   "note": ""
  },
  {
   "property": "C204",
   "status": "partial",
   "theorems": [
    "merge_sort_refuted",
    "merge_sort_partial"
   ],
   "note": "REFUTED: when the right stream has an item beyond all of the left one, reading compares with a null pointer. Positive: otherwise the merge is right, with and without duplicates (merge_sort_partial)."
  },
  {
   "property": "C205",
   "status": "partial",
   "theorems": [
    "merge_remain_refuted"
   ],
   "note": "REFUTED: one too many right after an item was taken."
  },
  {
   "property": "C206",
   "status": "proved",
   "theorems": [
    "limiter"
   ],
   "note": ""
  },
  {
   "property": "C207",
   "status": "partial",
   "theorems": [
    "limiter_offset_refuted"
   ],
   "note": "REFUTED: the offset has no effect (for iterators kept by value) and a full limiter accepts an item and then throws."
  },
  {
   "property": "C208",
   "status": "proved",
   "theorems": [
    "block_defaults"
   ],
   "note": ""
  },
  {
   "property": "C209",
   "status": "partial",
   "theorems": [
    "block_copy_refuted"
   ],
   "note": "REFUTED: all items are copied but the returned count is always 0."
  },
  {
   "property": "C210",
   "status": "proved",
   "theorems": [
    "stamp_order",
    "stamp_made"
   ],
   "note": ""
  },
  {
   "property": "C211",
   "status": "proved",
   "theorems": [
    "stamp_arith"
   ],
   "note": "Outside the given range of days the int sum overflows, which is undefined."
  },
  {
   "property": "C212",
   "status": "proved",
   "theorems": [
    "stamp_unix"
   ],
   "note": ""
  },
  {
   "property": "C213",
   "status": "partial",
   "theorems": [
    "stamp_unix_refuted",
    "stamp_unix"
   ],
   "note": "REFUTED: for every negative time the result is wrong, because the time is divided as an unsigned number."
  },
  {
   "property": "C214",
   "status": "proved",
   "theorems": [
    "stamp_interval"
   ],
   "note": ""
  },
  {
   "property": "C215",
   "status": "partial",
   "theorems": [
    "stamp_minutes_refuted",
    "stamp_minutes_partial"
   ],
   "note": "REFUTED: every interval of 144 or more minutes is wrong (a day is taken to have 144 minutes). Shorter ones are right."
  },
  {
   "property": "C216",
   "status": "proved",
   "theorems": [
    "stamp_windows"
   ],
   "note": ""
  },
  {
   "property": "C217",
   "status": "proved",
   "theorems": [
    "stamp_calendar",
    "stamp_offset"
   ],
   "note": "timegm of the C library is a parameter with its specification."
  },
  {
   "property": "C218",
   "status": "partial",
   "theorems": [
    "stamp_calendar_refuted",
    "stamp_error_refuted",
    "stamp_calendar"
   ],
   "note": "REFUTED: every date of the years 1 to 1969 throws or gives another point of time; the last second of 1969 throws."
  },
  {
   "property": "C219",
   "status": "proved",
   "theorems": [
    "stamp_text"
   ],
   "note": "gmtime of the C library is a parameter with its specification; strftime is modelled for the directives used."
  },
  {
   "property": "C220",
   "status": "proved",
   "theorems": [
    "parser_matches"
   ],
   "note": "Fields of searching sets ([*...]), several definitions in one field, alternatives and custom patterns are not part of this theorem; see C223-C229 for the parts that are false."
  },
  {
   "property": "C221",
   "status": "proved",
   "theorems": [
    "parser_quoted"
   ],
   "note": ""
  },
  {
   "property": "C222",
   "status": "proved",
   "theorems": [
    "parser_number"
   ],
   "note": ""
  },
  {
   "property": "C223",
   "status": "partial",
   "theorems": [
    "parser_negated_range_refuted",
    "parser_matches"
   ],
   "note": "REFUTED: for every a <= b the set [^a-b] takes exactly the characters up to b, those inside the range included. Sets with ^ and single characters are right (C220)."
  },
  {
   "property": "C224",
   "status": "partial",
   "theorems": [
    "parser_alternatives_refuted"
   ],
   "note": "REFUTED: a failed branch does not give back what it has read: %<ab%|ac%> rejects \"ac\", and %<a%|b%>c accepts \"abc\"."
  },
  {
   "property": "C225",
   "status": "partial",
   "theorems": [
    "parser_terminates_refuted",
    "parser_matches"
   ],
   "note": "REFUTED: the call never ends if a skipped alternative has a field number of two digits. Patterns without alternatives end (C220 gives a bound on the steps)."
  },
  {
   "property": "C226",
   "status": "partial",
   "theorems": [
    "parser_merge_refuted"
   ],
   "note": "REFUTED: the last text replaces the earlier ones."
  },
  {
   "property": "C227",
   "status": "partial",
   "theorems": [
    "parser_plus_refuted"
   ],
   "note": "REFUTED: every text with a plus sign is rejected."
  },
  {
   "property": "C228",
   "status": "partial",
   "theorems": [
    "parser_quote_refuted",
    "parser_quoted"
   ],
   "note": "REFUTED: a text without the final quote sign is accepted, and one that ends with the escape sign throws."
  },
  {
   "property": "C229",
   "status": "partial",
   "theorems": [
    "parser_limit_refuted",
    "parser_matches"
   ],
   "note": "REFUTED: a searching set with limits (1,2) into field 0 takes texts of any length. Other fields respect their limits (C220)."
  },
  {
   "property": "C230",
   "status": "proved",
   "theorems": [
    "stamp_parse_db"
   ],
   "note": ""
  },
  {
   "property": "C231",
   "status": "proved",
   "theorems": [
    "stamp_parse_iso"
   ],
   "note": ""
  },
  {
   "property": "C232",
   "status": "proved",
   "theorems": [
    "stamp_parse_date"
   ],
   "note": ""
  },
  {
   "property": "C233",
   "status": "partial",
   "theorems": [
    "stamp_parse_east_refuted"
   ],
   "note": "REFUTED: every zone that begins with + is rejected with an exception."
  },
  {
   "property": "C234",
   "status": "partial",
   "theorems": [
    "stamp_parse_west_refuted",
    "stamp_parse_west_partial"
   ],
   "note": "REFUTED: -hh:mm of 144 minutes or more and every -hhmm but -0000 give a wrong point of time; below 144 minutes -hh:mm is right."
  },
  {
   "property": "C235",
   "status": "partial",
   "theorems": [
    "stamp_parse_fraction_refuted"
   ],
   "note": "REFUTED: a fraction is always ignored."
  },
  {
   "property": "C236",
   "status": "partial",
   "theorems": [
    "stamp_parse_basic_refuted"
   ],
   "note": "REFUTED: hhmm and hhmmss are always rejected."
  },
  {
   "property": "C237",
   "status": "partial",
   "theorems": [
    "stamp_parse_malformed_refuted"
   ],
   "note": "REFUTED: a malformed time of an unexpected length is read as midnight."
  },
  {
   "property": "C238",
   "status": "partial",
   "theorems": [
    "stamp_parse_week_refuted"
   ],
   "note": "REFUTED: week 1 is read as 1 January, also when that day is not a Monday."
  },
  {
   "property": "C239",
   "status": "proved",
   "theorems": [
    "string_value"
   ],
   "note": "Both for strings with a closing zero (char, wchar_t) and without (byte, with createBuffer). One thread, allocation never fails."
  },
  {
   "property": "C240",
   "status": "partial",
   "theorems": [
    "string_self_assign_refuted"
   ],
   "note": "REFUTED: the string becomes empty and its buffer is never freed, for every text."
  },
  {
   "property": "C241",
   "status": "partial",
   "theorems": [
    "string_create_refuted"
   ],
   "note": "REFUTED: the last character is lost and c_str() has no closing zero, for every text without zeros (char and wchar_t strings; byte strings are right, see C239)."
  },
  {
   "property": "C242",
   "status": "partial",
   "theorems": [
    "string_overfull_refuted"
   ],
   "note": "REFUTED: the extra character takes the place of the closing zero and nothing is reported."
  },
  {
   "property": "C243",
   "status": "proved",
   "theorems": [
    "string_compare",
    "text_order_total"
   ],
   "note": ""
  },
  {
   "property": "C244",
   "status": "partial",
   "theorems": [
    "string_literal_le_refuted"
   ],
   "note": "REFUTED: <= answers as >=, wrong for every two texts that differ."
  },
  {
   "property": "C245",
   "status": "proved",
   "theorems": [
    "string_compare_nocase"
   ],
   "note": "strncasecmp is modelled after its standard description."
  },
  {
   "property": "C246",
   "status": "partial",
   "theorems": [
    "string_compare_nocase_zero_refuted"
   ],
   "note": "REFUTED: what follows a zero is not compared."
  },
  {
   "property": "C247",
   "status": "proved",
   "theorems": [
    "http_chunked_request"
   ],
   "note": ""
  },
  {
   "property": "C248",
   "status": "proved",
   "theorems": [
    "http_send"
   ],
   "note": ""
  },
  {
   "property": "C249",
   "status": "partial",
   "theorems": [
    "http_both_lengths_refuted"
   ],
   "note": "REFUTED: the name erased ends with a tab, so a length field that was set is sent beside the chunked coding."
  },
  {
   "property": "C250",
   "status": "partial",
   "theorems": [
    "http_leftover_refuted"
   ],
   "note": "REFUTED: the chunk buffer is not cleared; bytes written before the head was sent begin the body of the next request."
  },
  {
   "property": "C251",
   "status": "partial",
   "theorems": [
    "http_unannounced_refuted",
    "http_chunked_request"
   ],
   "note": "REFUTED: writing without beginBody sends chunks after a head without Transfer-Encoding. With beginBody it holds (http_chunked_request)."
  },
  {
   "property": "C252",
   "status": "proved",
   "theorems": [
    "http_set_url"
   ],
   "note": "User names and the proxy mode are modelled but not part of the claim."
  },
  {
   "property": "C253",
   "status": "partial",
   "theorems": [
    "http_url_query_refuted"
   ],
   "note": "REFUTED: the query becomes part of Host, the path is /."
  },
  {
   "property": "C254",
   "status": "proved",
   "theorems": [
    "http_open"
   ],
   "note": ""
  },
  {
   "property": "C255",
   "status": "proved",
   "theorems": [
    "http_length_body"
   ],
   "note": ""
  },
  {
   "property": "C256",
   "status": "proved",
   "theorems": [
    "http_chunked_body"
   ],
   "note": ""
  },
  {
   "property": "C257",
   "status": "partial",
   "theorems": [
    "http_chunk_size_refuted",
    "http_chunked_body"
   ],
   "note": "REFUTED: digits behind a small letter that is not the first digit are ignored, so the library cannot read its own 500 byte chunk. http_chunked_body: all other sizes are read."
  },
  {
   "property": "C258",
   "status": "partial",
   "theorems": [
    "http_chunked_end_refuted"
   ],
   "note": "REFUTED: hasItems and reset never return (no amount of steps is enough)."
  },
  {
   "property": "C259",
   "status": "partial",
   "theorems": [
    "http_closed_refuted"
   ],
   "note": "REFUTED: open and hasItems never return."
  },
  {
   "property": "C260",
   "status": "partial",
   "theorems": [
    "http_header_case_refuted"
   ],
   "note": "REFUTED: names in small letters are not seen, everything up to the end of the connection is read as the body."
  },
  {
   "property": "C261",
   "status": "partial",
   "theorems": [
    "http_past_end_refuted"
   ],
   "note": "REFUTED: the first byte of the next response is returned, then hasItems is true again."
  },
  {
   "property": "C262",
   "status": "partial",
   "theorems": [
    "http_trailer_refuted"
   ],
   "note": "REFUTED: only the first trailer line is taken off."
  },
  {
   "property": "C263",
   "status": "partial",
   "theorems": [
    "http_no_reason_refuted"
   ],
   "note": "REFUTED: the message is a reference of length 2^32-1 outside of the pool."
  },
  {
   "property": "C264",
   "status": "partial",
   "theorems": [
    "http_auto_open_refuted"
   ],
   "note": "REFUTED: they act on a read mode that was never set."
  },
  {
   "property": "C265",
   "status": "partial",
   "theorems": [
    "http_cut_head_refuted"
   ],
   "note": "REFUTED: open answers as for a complete head and drops the line that was cut."
  },
  {
   "property": "C266",
   "status": "proved",
   "theorems": [
    "http_direct_body"
   ],
   "note": ""
  },
  {
   "property": "C267",
   "status": "proved",
   "theorems": [
    "url_decode_read"
   ],
   "note": ""
  },
  {
   "property": "C268",
   "status": "proved",
   "theorems": [
    "url_decode_write"
   ],
   "note": ""
  },
  {
   "property": "C269",
   "status": "proved",
   "theorems": [
    "url_encode"
   ],
   "note": ""
  },
  {
   "property": "C270",
   "status": "proved",
   "theorems": [
    "query_fields"
   ],
   "note": ""
  },
  {
   "property": "C271",
   "status": "partial",
   "theorems": [
    "query_none_refuted"
   ],
   "note": "REFUTED: there is one item with an empty name and an empty value."
  },
  {
   "property": "C272",
   "status": "partial",
   "theorems": [
    "query_empty_refuted"
   ],
   "note": "REFUTED: an empty part comes as a field without name and value, and the part after it is lost."
  },
  {
   "property": "C273",
   "status": "partial",
   "theorems": [
    "query_name_refuted"
   ],
   "note": "REFUTED: names are delivered as they stand in the query, only values are decoded."
  },
  {
   "property": "C274",
   "status": "partial",
   "theorems": [
    "url_malformed_refuted"
   ],
   "note": "REFUTED: other characters are taken for digits; a lone percent sign at the end takes the digits of the escape before it, or characters that were never set."
  },
  {
   "property": "C275",
   "status": "partial",
   "theorems": [
    "filter_block_end_refuted"
   ],
   "note": "REFUTED: the loop condition is inverted, so the buffer is filled by repeating the last byte."
  },
  {
   "property": "C276",
   "status": "partial",
   "theorems": [
    "filter_block_all_refuted"
   ],
   "note": "REFUTED: the loop condition is inverted, so one byte is read; a peeked item is stored at a wrong index and lost."
  },
  {
   "property": "C277",
   "status": "proved",
   "theorems": [
    "systime_arithmetic"
   ],
   "note": ""
  },
  {
   "property": "C278",
   "status": "partial",
   "theorems": [
    "systime_negative_refuted"
   ],
   "note": "REFUTED: a difference of at most one second below zero has -1 seconds, which is the mark of nil."
  },
  {
   "property": "C279",
   "status": "proved",
   "theorems": [
    "systime_readings"
   ],
   "note": ""
  },
  {
   "property": "C280",
   "status": "proved",
   "theorems": [
    "systime_parts"
   ],
   "note": ""
  },
  {
   "property": "C281",
   "status": "proved",
   "theorems": [
    "timeout_after"
   ],
   "note": ""
  },
  {
   "property": "C282",
   "status": "proved",
   "theorems": [
    "timeout_order"
   ],
   "note": ""
  },
  {
   "property": "C283",
   "status": "partial",
   "theorems": [
    "timeout_equal_refuted"
   ],
   "note": "REFUTED: an infinite timeout compares equal to every timeout, because nil is neither less nor greater than any time."
  },
  {
   "property": "C284",
   "status": "proved",
   "theorems": [
    "pool_exclusive"
   ],
   "note": ""
  },
  {
   "property": "C285",
   "status": "proved",
   "theorems": [
    "pool_account"
   ],
   "note": ""
  },
  {
   "property": "C286",
   "status": "proved",
   "theorems": [
    "pool_no_idle"
   ],
   "note": ""
  },
  {
   "property": "C287",
   "status": "proved",
   "theorems": [
    "pool_limit_serial"
   ],
   "note": ""
  },
  {
   "property": "C288",
   "status": "partial",
   "theorems": [
    "pool_limit_refuted"
   ],
   "note": "REFUTED: the limit is checked before the resource is created and counted after it; any number of clients that come together get one each. Positive part: C287."
  },
  {
   "property": "C289",
   "status": "partial",
   "theorems": [
    "pool_waiting_refuted"
   ],
   "note": "REFUTED: two releases that see an exceeded limit both destroy their resources and wake nobody."
  },
  {
   "property": "C290",
   "status": "partial",
   "theorems": [
    "pool_set_limit_refuted"
   ],
   "note": "REFUTED: the limit is never assigned (the assignment goes the other way), and the current limit is changed by a wrong difference."
  },
  {
   "property": "C291",
   "status": "proved",
   "theorems": [
    "exec_once"
   ],
   "note": ""
  },
  {
   "property": "C292",
   "status": "proved",
   "theorems": [
    "exec_threads"
   ],
   "note": ""
  },
  {
   "property": "C293",
   "status": "partial",
   "theorems": [
    "exec_threads_refuted"
   ],
   "note": "REFUTED: a worker whose idle time is over counts itself out, finds an action and counts itself in again after a new thread was started. Positive part: C292."
  },
  {
   "property": "C294",
   "status": "proved",
   "theorems": [
    "exec_returns"
   ],
   "note": ""
  },
  {
   "property": "C295",
   "status": "partial",
   "theorems": [
    "exec_after_stop_refuted"
   ],
   "note": "REFUTED: workers that end because of stopAll stay counted; with the maximum reached no thread is started again and execute waits for ever."
  },
  {
   "property": "C296",
   "status": "partial",
   "theorems": [
    "exec_idle_refuted"
   ],
   "note": "REFUTED: a worker that leaves after its idle time may decrement the counter twice; the counter falls to -1, its unsigned value is above every maximum, and no thread is started any more. Positive part: C294."
  },
  {
   "property": "C297",
   "status": "proved",
   "theorems": [
    "config_read"
   ],
   "note": ""
  },
  {
   "property": "C298",
   "status": "proved",
   "theorems": [
    "config_errors"
   ],
   "note": ""
  },
  {
   "property": "C299",
   "status": "proved",
   "theorems": [
    "config_ends"
   ],
   "note": ""
  },
  {
   "property": "C300",
   "status": "partial",
   "theorems": [
    "config_single_refuted"
   ],
   "note": "REFUTED: a value of one character behind one space is read as empty, behind two spaces the length wraps around (undefined behaviour). Positive part: C297."
  },
  {
   "property": "C301",
   "status": "partial",
   "theorems": [
    "config_last_line_refuted"
   ],
   "note": "REFUTED: without the line end the last character of the value is lost. Positive part: C297."
  },
  {
   "property": "C302",
   "status": "partial",
   "theorems": [
    "config_quotes_refuted"
   ],
   "note": "REFUTED: quoted values are trimmed as well; a quotation mark behind a space is not recognised. Positive part: C297."
  },
  {
   "property": "C303",
   "status": "partial",
   "theorems": [
    "config_include_refuted"
   ],
   "note": "REFUTED: fields behind an include line are stored under the section named by a single dot."
  },
  {
   "property": "C304",
   "status": "partial",
   "theorems": [
    "config_rest_refuted"
   ],
   "note": "REFUTED: a section with empty name ends the reading silently; an error before the first section is thrown even with ignoreErrors. Positive part: C298."
  },
  {
   "property": "C305",
   "status": "partial",
   "theorems": [
    "config_escape_refuted"
   ],
   "note": "REFUTED: \\\\b gives a carriage return, an escaped quotation mark at the end of the text closes the value, escaped bytes above 127 are dropped. Positive part: C297."
  },
  {
   "property": "C306",
   "status": "proved",
   "theorems": [
    "path_join"
   ],
   "note": ""
  },
  {
   "property": "C307",
   "status": "proved",
   "theorems": [
    "path_parents"
   ],
   "note": ""
  },
  {
   "property": "C308",
   "status": "proved",
   "theorems": [
    "path_fits"
   ],
   "note": ""
  },
  {
   "property": "C309",
   "status": "proved",
   "theorems": [
    "path_parts"
   ],
   "note": ""
  },
  {
   "property": "C310",
   "status": "partial",
   "theorems": [
    "path_filename_refuted"
   ],
   "note": "REFUTED: the first character of the name is lost. Positive part: C309."
  },
  {
   "property": "C311",
   "status": "partial",
   "theorems": [
    "path_dots_refuted"
   ],
   "note": "REFUTED: every path that ends with two dots is taken as a directory, its file name is empty. Positive part: C309."
  },
  {
   "property": "C312",
   "status": "partial",
   "theorems": [
    "path_parent_refuted"
   ],
   "note": "REFUTED: parent behind a name leaves two separators at the end, and the next parent only removes one of them; two dots inside a name are removed by parent like a directory. Positive part: C307."
  },
  {
   "property": "C313",
   "status": "partial",
   "theorems": [
    "path_default_refuted"
   ],
   "note": "REFUTED: the default constructor leaves the remembered position uninitialised, and it is read. Positive part: C308."
  },
  {
   "property": "C314",
   "status": "partial",
   "theorems": [
    "path_windows_refuted"
   ],
   "note": "REFUTED: every name that contains a separator is taken as absolute, and the branch for the current drive is never reached."
  },
  {
   "property": "C315",
   "status": "proved",
   "theorems": [
    "path_directory"
   ],
   "note": ""
  },
  {
   "property": "C316",
   "status": "proved",
   "theorems": [
    "disp_once"
   ],
   "note": ""
  },
  {
   "property": "C317",
   "status": "partial",
   "theorems": [
    "disp_rest_refuted"
   ],
   "note": "REFUTED: getNextAction detaches the first action but does not remove it from the queue, so no action but the first one in the life of the dispatcher is ever run or rejected. Positive part: C316."
  },
  {
   "property": "C318",
   "status": "partial",
   "theorems": [
    "disp_wake_refuted"
   ],
   "note": "REFUTED: the queue never gets empty again after the first action, so no later action wakes the thread."
  },
  {
   "property": "C319",
   "status": "partial",
   "theorems": [
    "disp_quit_refuted"
   ],
   "note": "REFUTED: run() resets the stop flag, a quit() before it is forgotten."
  },
  {
   "property": "C320",
   "status": "proved",
   "theorems": [
    "sched_earliest"
   ],
   "note": ""
  },
  {
   "property": "C321",
   "status": "partial",
   "theorems": [
    "sched_resolve_refuted"
   ],
   "note": "REFUTED: a reference to the first element of the array is used after the element was removed, so the promise of the next waiting item is resolved, whatever its time is, or a destroyed one. Positive part: C320."
  },
  {
   "property": "C322",
   "status": "partial",
   "theorems": [
    "sched_lock_refuted"
   ],
   "note": "REFUTED: Dispatcher::run releases the lock before onIdle, and Scheduler::onIdle uses the queue without it and releases it again."
  },
  {
   "property": "C323",
   "status": "proved",
   "theorems": [
    "qx_once"
   ],
   "note": "Schedules begin with reset(), see C326."
  },
  {
   "property": "C324",
   "status": "proved",
   "theorems": [
    "qx_progress"
   ],
   "note": "Schedules begin with reset(), see C326; for threads that are asked to finish see C330."
  },
  {
   "property": "C325",
   "status": "proved",
   "theorems": [
    "qx_stop"
   ],
   "note": "Schedules begin with reset(), see C326; at least one thread has called serve(), see C327."
  },
  {
   "property": "C326",
   "status": "partial",
   "theorems": [
    "qx_new_refuted"
   ],
   "note": "REFUTED: finishFlag is not initialised by the constructor and is read by execute and serve."
  },
  {
   "property": "C327",
   "status": "partial",
   "theorems": [
    "qx_gate_refuted"
   ],
   "note": "REFUTED: the gate is closed until the first thread leaves. Positive part: C325."
  },
  {
   "property": "C328",
   "status": "partial",
   "theorems": [
    "qx_idle_refuted"
   ],
   "note": "REFUTED: the semaphore keeps at most one permit, so two calls of execute may wake one thread, and the second action waits for the end of the first one. Positive part: C324."
  },
  {
   "property": "C329",
   "status": "partial",
   "theorems": [
    "qx_running_refuted"
   ],
   "note": "REFUTED: runningMessages is decremented without the lock."
  },
  {
   "property": "C330",
   "status": "partial",
   "theorems": [
    "qx_finish_refuted"
   ],
   "note": "REFUTED: a thread that is asked to finish leaves the inner loop and waits for the semaphore while actions wait. Positive part: C324."
  },
  {
   "property": "C331",
   "status": "proved",
   "theorems": [
    "mq_once"
   ],
   "note": ""
  },
  {
   "property": "C332",
   "status": "proved",
   "theorems": [
    "mq_fifo"
   ],
   "note": ""
  },
  {
   "property": "C333",
   "status": "proved",
   "theorems": [
    "mq_prio"
   ],
   "note": ""
  },
  {
   "property": "C334",
   "status": "proved",
   "theorems": [
    "mq_progress"
   ],
   "note": ""
  },
  {
   "property": "C335",
   "status": "proved",
   "theorems": [
    "mq_flush"
   ],
   "note": ""
  },
  {
   "property": "C336",
   "status": "partial",
   "theorems": [
    "mq_flush_refuted"
   ],
   "note": "REFUTED: a flush posted while another flush goes on is rejected by it and its caller goes on while earlier messages wait. Positive part: C335."
  },
  {
   "property": "C337",
   "status": "partial",
   "theorems": [
    "mq_cancel_refuted"
   ],
   "note": "REFUTED: a flush rejects the cancel message before the message to cancel. Positive part: C335."
  },
  {
   "property": "C338",
   "status": "partial",
   "theorems": [
    "mq_finish_refuted"
   ],
   "note": "REFUTED: a flush rejects the message of finish() and the flag is never set."
  },
  {
   "property": "C339",
   "status": "proved",
   "theorems": [
    "mq_length"
   ],
   "note": ""
  },
  {
   "property": "C340",
   "status": "partial",
   "theorems": [
    "mq_length_refuted"
   ],
   "note": "REFUTED: the message is counted after it was put to the queue, the worker may take it before; length() is then 2^64-1. Positive part: C339."
  },
  {
   "property": "C341",
   "status": "partial",
   "theorems": [
    "mq_twice",
    "mq_twice_refuted"
   ],
   "note": "REFUTED: the oldest of the new messages has a null link, so it is accepted again and the list becomes a cycle. mq_twice proves the claim for all other messages and the order of delivery on the level of pointers."
  },
  {
   "property": "C342",
   "status": "proved",
   "theorems": [
    "os_once"
   ],
   "note": ""
  },
  {
   "property": "C343",
   "status": "proved",
   "theorems": [
    "os_never_early"
   ],
   "note": ""
  },
  {
   "property": "C344",
   "status": "proved",
   "theorems": [
    "os_wait"
   ],
   "note": ""
  },
  {
   "property": "C345",
   "status": "proved",
   "theorems": [
    "os_progress"
   ],
   "note": ""
  },
  {
   "property": "C346",
   "status": "proved",
   "theorems": [
    "os_order"
   ],
   "note": "For mixed messages see C347."
  },
  {
   "property": "C347",
   "status": "partial",
   "theorems": [
    "os_order_refuted"
   ],
   "note": "REFUTED: plain messages count as due now, so a new overdue event is merged before a waiting plain message and the earlier event behind it. Positive part: C346."
  },
  {
   "property": "C348",
   "status": "partial",
   "theorems": [
    "os_prio_refuted"
   ],
   "note": "REFUTED: a new overdue event is merged before a waiting priority message."
  },
  {
   "property": "C349",
   "status": "proved",
   "theorems": [
    "sp_read"
   ],
   "note": ""
  },
  {
   "property": "C350",
   "status": "proved",
   "theorems": [
    "sp_zero"
   ],
   "note": ""
  },
  {
   "property": "C351",
   "status": "proved",
   "theorems": [
    "sp_mark"
   ],
   "note": ""
  },
  {
   "property": "C352",
   "status": "partial",
   "theorems": [
    "sp_parts_refuted"
   ],
   "note": "REFUTED: add() writes a zero after every part, and fromMark includes the zeros. Positive part: C351."
  },
  {
   "property": "C353",
   "status": "partial",
   "theorems": [
    "sp_iter_refuted"
   ],
   "note": "REFUTED: the length includes the closing zero; add(const IIterator &) is right (C349)."
  },
  {
   "property": "C354",
   "status": "partial",
   "theorems": [
    "sp_write_refuted"
   ],
   "note": "REFUTED: poolRef is updated by finish() only, a write that moves the pool leaves it dangling. Positive part: C349."
  },
  {
   "property": "C355",
   "status": "partial",
   "theorems": [
    "sp_limit_refuted"
   ],
   "note": "REFUTED: offsets are cut to 32 bits without a check."
  },
  {
   "property": "C356",
   "status": "proved",
   "theorems": [
    "pa_alloc"
   ],
   "note": ""
  },
  {
   "property": "C357",
   "status": "proved",
   "theorems": [
    "pa_noleak"
   ],
   "note": ""
  },
  {
   "property": "C358",
   "status": "partial",
   "theorems": [
    "pa_fail_refuted"
   ],
   "note": "REFUTED: alloc raises the reference count before it calls operator new, so after an exception the count never returns to zero. Positive part: C357."
  },
  {
   "property": "C359",
   "status": "proved",
   "theorems": [
    "pa_reuse"
   ],
   "note": ""
  },
  {
   "property": "C360",
   "status": "proved",
   "theorems": [
    "mp_alloc"
   ],
   "note": ""
  },
  {
   "property": "C361",
   "status": "proved",
   "theorems": [
    "sa_list"
   ],
   "note": ""
  },
  {
   "property": "C362",
   "status": "proved",
   "theorems": [
    "sa_noleak"
   ],
   "note": ""
  },
  {
   "property": "C363",
   "status": "proved",
   "theorems": [
    "sa_small"
   ],
   "note": ""
  },
  {
   "property": "C364",
   "status": "partial",
   "theorems": [
    "sa_rt_refuted"
   ],
   "note": "REFUTED: move() frees the replaced block by operator delete even if it came from the runtime allocator. Positive part: C361, C362 (no runtime allocator)."
  },
  {
   "property": "C365",
   "status": "proved",
   "theorems": [
    "as_find"
   ],
   "note": ""
  },
  {
   "property": "C366",
   "status": "proved",
   "theorems": [
    "as_order"
   ],
   "note": ""
  },
  {
   "property": "C367",
   "status": "partial",
   "theorems": [
    "as_ptr_refuted"
   ],
   "note": "REFUTED: for an item of the unordered part the pointer is made of the place in the ordered part. Positive part: C365 (getPos)."
  },
  {
   "property": "C368",
   "status": "partial",
   "theorems": [
    "as_dups_refuted"
   ],
   "note": "REFUTED: insertion sort keeps duplicates, and the heap branch calls removeDuplicatesAfterOrder before orderedCount is set, so it does nothing. Positive part: C366."
  },
  {
   "property": "C369",
   "status": "partial",
   "theorems": [
    "as_insert_refuted"
   ],
   "note": "REFUTED: orderedCount is set to the position even if it was lower. Positive part: C365."
  },
  {
   "property": "C370",
   "status": "partial",
   "theorems": [
    "as_erase_refuted"
   ],
   "note": "REFUTED: only one item is removed."
  },
  {
   "property": "C371",
   "status": "partial",
   "theorems": [
    "as_detect_refuted"
   ],
   "note": "REFUTED: checkOrder returns the count of ordered pairs, and length()-1 wraps around for an empty array."
  },
  {
   "property": "C372",
   "status": "proved",
   "theorems": [
    "as_list"
   ],
   "note": ""
  },
  {
   "property": "C373",
   "status": "proved",
   "theorems": [
    "dl_refine"
   ],
   "note": ""
  },
  {
   "property": "C374",
   "status": "proved",
   "theorems": [
    "dl_keep"
   ],
   "note": ""
  },
  {
   "property": "C375",
   "status": "proved",
   "theorems": [
    "dl_noleak",
    "dl_empty_noleak"
   ],
   "note": ""
  },
  {
   "property": "C376",
   "status": "partial",
   "theorems": [
    "dl_erase_twice_refuted"
   ],
   "note": "REFUTED: removeItem does not know that the item is not in the list; its reference is dropped again, the count is lowered and the iterator dangles. Positive part: C373."
  },
  {
   "property": "C377",
   "status": "partial",
   "theorems": [
    "dl_stuck_refuted"
   ],
   "note": "REFUTED: a removed item points to itself, so the iterator returns it forever. Positive part: C373, C374."
  },
  {
   "property": "C378",
   "status": "partial",
   "theorems": [
    "dl_lost_insert_refuted"
   ],
   "note": "REFUTED: insertion at an iterator whose item was removed links the new item with the removed one only. Positive part: C373."
  },
  {
   "property": "C379",
   "status": "proved",
   "theorems": [
    "lp_result"
   ],
   "note": ""
  },
  {
   "property": "C380",
   "status": "proved",
   "theorems": [
    "lp_excl"
   ],
   "note": ""
  },
  {
   "property": "C381",
   "status": "proved",
   "theorems": [
    "lp_live"
   ],
   "note": ""
  },
  {
   "property": "C382",
   "status": "proved",
   "theorems": [
    "lp_nothrow"
   ],
   "note": ""
  },
  {
   "property": "C383",
   "status": "proved",
   "theorems": [
    "lp_try"
   ],
   "note": ""
  },
  {
   "property": "C384",
   "status": "partial",
   "theorems": [
    "lp_livelock_refuted"
   ],
   "note": "REFUTED: two threads with opposite order may fail in step for ever. Positive part: C381."
  },
  {
   "property": "C385",
   "status": "partial",
   "theorems": [
    "lp_same_refuted"
   ],
   "note": "REFUTED: for a lock that is not recursive the loop never ends. Positive part: C381 for different locks."
  },
  {
   "property": "C386",
   "status": "proved",
   "theorems": [
    "distr_refine"
   ],
   "note": ""
  },
  {
   "property": "C387",
   "status": "proved",
   "theorems": [
    "distr_all"
   ],
   "note": ""
  },
  {
   "property": "C388",
   "status": "proved",
   "theorems": [
    "distr_return"
   ],
   "note": ""
  },
  {
   "property": "C389",
   "status": "proved",
   "theorems": [
    "distr_order"
   ],
   "note": ""
  },
  {
   "property": "C390",
   "status": "proved",
   "theorems": [
    "distr_gone"
   ],
   "note": ""
  },
  {
   "property": "C391",
   "status": "proved",
   "theorems": [
    "distr_stop"
   ],
   "note": ""
  },
  {
   "property": "C392",
   "status": "partial",
   "theorems": [
    "distr_sender_refuted"
   ],
   "note": "REFUTED: the sender is stored but never compared with the listener (distrubutor.tcc:113-136). Positive part: C387."
  },
  {
   "property": "C393",
   "status": "partial",
   "theorems": [
    "distr_readd_refuted"
   ],
   "note": "REFUTED: removing the last listener leaves the tail pointer on the destroyed node (linkedList.h:251-258). Positive part: C386."
  },
  {
   "property": "C394",
   "status": "partial",
   "theorems": [
    "distr_stages_refuted"
   ],
   "note": "REFUTED: the item of the inner stage is erased behind another one, so the tail pointer stays on a dead stack frame (distrubutor.tcc:121, linkedList.h:251-258). Positive part: C386 for one stage."
  },
  {
   "property": "C395",
   "status": "partial",
   "theorems": [
    "distr_raise_refuted"
   ],
   "note": "REFUTED: only the stage of the throwing listener is stopped (distrubutor.tcc:128-131). Positive part: C391 for one stage."
  },
  {
   "property": "C396",
   "status": "partial",
   "theorems": [
    "distr_exit_refuted"
   ],
   "note": "REFUTED: exitMsgStage is never set, so removal does not move the position of the exit message (distrubutor.tcc:52-55, 173-178)."
  },
  {
   "property": "C397",
   "status": "proved",
   "theorems": [
    "ne_find"
   ],
   "note": ""
  },
  {
   "property": "C398",
   "status": "proved",
   "theorems": [
    "ne_name"
   ],
   "note": ""
  },
  {
   "property": "C399",
   "status": "proved",
   "theorems": [
    "ne_inverse"
   ],
   "note": ""
  },
  {
   "property": "C400",
   "status": "proved",
   "theorems": [
    "ne_tostring"
   ],
   "note": ""
  },
  {
   "property": "C401",
   "status": "proved",
   "theorems": [
    "strtod_read"
   ],
   "note": ""
  },
  {
   "property": "C402",
   "status": "proved",
   "theorems": [
    "strtod_integer"
   ],
   "note": "Doubles are IEEE binary64 (Coq.Floats.SpecFloat), rounded after every operation."
  },
  {
   "property": "C403",
   "status": "proved",
   "theorems": [
    "strtod_nearest"
   ],
   "note": "Doubles are IEEE binary64 (Coq.Floats.SpecFloat), rounded after every operation."
  },
  {
   "property": "C404",
   "status": "proved",
   "theorems": [
    "strtod_no_number"
   ],
   "note": ""
  },
  {
   "property": "C405",
   "status": "partial",
   "theorems": [
    "strtod_zero_refuted"
   ],
   "note": "REFUTED: 0e400 is read as not a number, because the power of ten overflows to infinity and zero times infinity is not a number (strtodouble.cpp:244-254). Positive part: C402."
  },
  {
   "property": "C406",
   "status": "partial",
   "theorems": [
    "strtod_small_refuted"
   ],
   "note": "REFUTED: 123456789012345678e-320 is read as zero, because the mantissa is divided by 10^320, which is infinity (strtodouble.cpp:244-254). Positive part: C403."
  },
  {
   "property": "C407",
   "status": "partial",
   "theorems": [
    "strtod_zeros_refuted"
   ],
   "note": "REFUTED: leading zeros count among the eighteen digits, so 0.0000000000000000001 is read as zero (strtodouble.cpp:136-165). Positive part: C403."
  },
  {
   "property": "C408",
   "status": "partial",
   "theorems": [
    "strtod_exponent_refuted"
   ],
   "note": "REFUTED: of \"1e\" and \"1e+\" the letter and the sign are read too (strtodouble.cpp:204-220). Positive part: C401."
  },
  {
   "property": "C409",
   "status": "partial",
   "theorems": [
    "strtod_overflow_refuted"
   ],
   "note": "REFUTED: the exponent of 1e9999999999 overflows int (strtodouble.cpp:216-219). Positive part: C401 for exponents below 10^9."
  },
  {
   "property": "C410",
   "status": "partial",
   "theorems": [
    "strtod_range_refuted"
   ],
   "note": "REFUTED: 0e512 is refused (strtodouble.cpp:240-243). Positive part: C401."
  },
  {
   "property": "C411",
   "status": "proved",
   "theorems": [
    "xmlent_named"
   ],
   "note": ""
  },
  {
   "property": "C412",
   "status": "proved",
   "theorems": [
    "xmlent_roundtrip"
   ],
   "note": ""
  },
  {
   "property": "C413",
   "status": "proved",
   "theorems": [
    "xmlent_total"
   ],
   "note": ""
  },
  {
   "property": "C414",
   "status": "partial",
   "theorems": [
    "xmlent_numeric_refuted"
   ],
   "note": "REFUTED: the number is parsed from the sign #, so every decimal reference gives the character 0 (xmlparser.cpp:134-141). Positive part: C411 for named entities."
  },
  {
   "property": "C415",
   "status": "partial",
   "theorems": [
    "xmlent_unknown_refuted"
   ],
   "note": "REFUTED: everything up to the next semicolon is dropped (xmlparser.cpp:219-222). Positive part: C413 for texts without semicolons."
  },
  {
   "property": "C416",
   "status": "proved",
   "theorems": [
    "job_atomic"
   ],
   "note": ""
  },
  {
   "property": "C417",
   "status": "proved",
   "theorems": [
    "job_event"
   ],
   "note": ""
  },
  {
   "property": "C418",
   "status": "proved",
   "theorems": [
    "job_once"
   ],
   "note": ""
  },
  {
   "property": "C419",
   "status": "partial",
   "theorems": [
    "job_execute_refuted"
   ],
   "note": "REFUTED: the loop of run() goes on while the job is not ready, so a ready job is only marked as running (job.cpp:72-80). Positive part: C416-C418 for the states."
  },
  {
   "property": "C420",
   "status": "partial",
   "theorems": [
    "job_run_refuted"
   ],
   "note": "REFUTED: the same loop calls the action of a job that is not ready without end (job.cpp:72-80)."
  },
  {
   "property": "C421",
   "status": "proved",
   "theorems": [
    "ntf_result"
   ],
   "note": ""
  },
  {
   "property": "C422",
   "status": "proved",
   "theorems": [
    "ntf_not_lost"
   ],
   "note": ""
  },
  {
   "property": "C423",
   "status": "proved",
   "theorems": [
    "ntf_lifetime"
   ],
   "note": ""
  },
  {
   "property": "C424",
   "status": "proved",
   "theorems": [
    "ntf_reason"
   ],
   "note": ""
  },
  {
   "property": "C425",
   "status": "proved",
   "theorems": [
    "sleep_woken"
   ],
   "note": ""
  },
  {
   "property": "C426",
   "status": "proved",
   "theorems": [
    "sleep_result"
   ],
   "note": ""
  },
  {
   "property": "C427",
   "status": "partial",
   "theorems": [
    "sleep_reason_refuted"
   ],
   "note": "REFUTED: the reason is stored when the sleep timed out, not when it was interrupted (linux/thread.cpp:407-411)."
  },
  {
   "property": "C428",
   "status": "partial",
   "theorems": [
    "deep_flag_refuted"
   ],
   "note": "REFUTED: each interrupted sleep inside deepSleep takes the wake-up (linux/thread.cpp:413-415, linux/threadSleeper.cpp:52)."
  },
  {
   "property": "C429",
   "status": "partial",
   "theorems": [
    "is_finishing_refuted"
   ],
   "note": "REFUTED: isFinishing() reads the flags of the current thread (linux/thread.cpp:440-442)."
  },
  {
   "property": "C430",
   "status": "proved",
   "theorems": [
    "evlog_roundtrip"
   ],
   "note": "File as a list of bytes; times unbounded numbers."
  },
  {
   "property": "C431",
   "status": "proved",
   "theorems": [
    "evlog_crash"
   ],
   "note": ""
  },
  {
   "property": "C432",
   "status": "proved",
   "theorems": [
    "evlog_corrupt"
   ],
   "note": ""
  },
  {
   "property": "C433",
   "status": "proved",
   "theorems": [
    "evlog_offset"
   ],
   "note": ""
  },
  {
   "property": "C434",
   "status": "partial",
   "theorems": [
    "evlog_live_offset_refuted"
   ],
   "note": "REFUTED: offset in blocks is added to a position in bytes (eventdb.cpp:173, 179): one block too low after a pause of more than 65535 seconds, also for the first event of a file. C433 has the positive part."
  },
  {
   "property": "C435",
   "status": "partial",
   "theorems": [
    "evlog_read_refuted"
   ],
   "note": "REFUTED: the number of blocks is used as the number of bytes (eventdb.cpp:274-279)."
  },
  {
   "property": "C436",
   "status": "partial",
   "theorems": [
    "evlog_back_refuted"
   ],
   "note": "REFUTED: the event is written and read back 2^32 seconds later (eventdb.cpp:80-98)."
  },
  {
   "property": "C437",
   "status": "proved",
   "theorems": [
    "evlog_sync"
   ],
   "note": "The times are in C438."
  },
  {
   "property": "C438",
   "status": "partial",
   "theorems": [
    "evlog_sync_time_refuted"
   ],
   "note": "REFUTED: lastTimestamp is not initialised (eventdb.cpp:45); all times are shifted by its value."
  },
  {
   "property": "C439",
   "status": "partial",
   "theorems": [
    "evlog_other_refuted"
   ],
   "note": "REFUTED: the blocks that advance the time are delivered as events (eventdb.cpp:550-554)."
  },
  {
   "property": "C440",
   "status": "proved",
   "theorems": [
    "evlog_range"
   ],
   "note": ""
  },
  {
   "property": "C441",
   "status": "proved",
   "theorems": [
    "cells_reopen",
    "cells_accepted"
   ],
   "note": "Times below 2^32, cells below 2^32."
  },
  {
   "property": "C442",
   "status": "proved",
   "theorems": [
    "cells_latest"
   ],
   "note": ""
  },
  {
   "property": "C443",
   "status": "partial",
   "theorems": [
    "cells_once_refuted"
   ],
   "note": "REFUTED: cell numbers begin with 1, so entry 0 of the table always leads to the first frame, whose cell is delivered twice (eventdb.cpp:467-469, 536-541)."
  },
  {
   "property": "C444",
   "status": "partial",
   "theorems": [
    "cells_last_refuted"
   ],
   "note": "REFUTED: an allocated cell that was not written leads to the first frame, which may hold an old event of another cell. C442 has the positive part."
  },
  {
   "property": "C445",
   "status": "proved",
   "theorems": [
    "fdselect_data"
   ],
   "note": ""
  },
  {
   "property": "C446",
   "status": "proved",
   "theorems": [
    "fdselect_next",
    "fdselect_set"
   ],
   "note": ""
  },
  {
   "property": "C447",
   "status": "proved",
   "theorems": [
    "fdselect_all",
    "fdselect_pending"
   ],
   "note": ""
  },
  {
   "property": "C448",
   "status": "proved",
   "theorems": [
    "fdselect_drop"
   ],
   "note": ""
  },
  {
   "property": "C449",
   "status": "partial",
   "theorems": [
    "fdselect_zero_refuted",
    "fdselect_all"
   ],
   "note": "REFUTED: on an object that has not waited yet, or when its place was passed already, getNext waits first; after a wait it is returned (fdselect_all)"
  },
  {
   "property": "C450",
   "status": "partial",
   "theorems": [
    "fdselect_wake_refuted"
   ],
   "note": "REFUTED: when no descriptor is left to be looked at, getNext writes to the entry at the position, which is behind the end of the list (or at 2^64-1 on a new object)"
  },
  {
   "property": "C451",
   "status": "partial",
   "theorems": [
    "fdselect_reason_refuted"
   ],
   "note": "REFUTED: two requests give one notice with the last reason"
  },
  {
   "property": "C452",
   "status": "partial",
   "theorems": [
    "fdselect_wake_event_refuted"
   ],
   "note": "REFUTED: the pending event of the descriptor at the position is cleared"
  },
  {
   "property": "C453",
   "status": "partial",
   "theorems": [
    "fdselect_close_refuted"
   ],
   "note": "REFUTED: the descriptors stay stored and are closed again"
  },
  {
   "property": "C454",
   "status": "proved",
   "theorems": [
    "fdselect_time"
   ],
   "note": ""
  },
  {
   "property": "C455",
   "status": "partial",
   "theorems": [
    "fdselect_time_refuted",
    "fdselect_time"
   ],
   "note": "REFUTED: the conversion to int makes a timeout of 2^31 ms endless; fdselect_time holds below 2^31 ms"
  },
  {
   "property": "C456",
   "status": "proved",
   "theorems": [
    "rand_seeds"
   ],
   "note": ""
  },
  {
   "property": "C457",
   "status": "proved",
   "theorems": [
    "rand_period"
   ],
   "note": ""
  },
  {
   "property": "C458",
   "status": "proved",
   "theorems": [
    "random_natural"
   ],
   "note": ""
  },
  {
   "property": "C459",
   "status": "proved",
   "theorems": [
    "random_spread"
   ],
   "note": ""
  },
  {
   "property": "C460",
   "status": "partial",
   "theorems": [
    "random_wide_refuted",
    "random_spread"
   ],
   "note": "REFUTED: values above minimum + 2^32 never come; random_spread holds up to 2^32 numbers"
  },
  {
   "property": "C461",
   "status": "proved",
   "theorems": [
    "random_integer"
   ],
   "note": ""
  },
  {
   "property": "C462",
   "status": "partial",
   "theorems": [
    "random_integer_refuted",
    "random_integer"
   ],
   "note": "REFUTED: the minimum is not added, and the product overflows for wide ranges"
  },
  {
   "property": "C463",
   "status": "partial",
   "theorems": [
    "rand_setseed_refuted",
    "rand_setseed"
   ],
   "note": "REFUTED: the constructor throws the first value away and setSeed does not, so the seed itself comes first; rand_setseed: after it the values agree"
  },
  {
   "property": "C464",
   "status": "proved",
   "theorems": [
    "epsel_oneshot"
   ],
   "note": ""
  },
  {
   "property": "C465",
   "status": "proved",
   "theorems": [
    "epsel_timeouts"
   ],
   "note": ""
  },
  {
   "property": "C466",
   "status": "partial",
   "theorems": [
    "epsel_order_refuted",
    "epsel_timeouts"
   ],
   "note": "REFUTED: removing an inner entry restores the order of the heap from the top only; epsel_timeouts: a timeout is reported when all have passed"
  },
  {
   "property": "C467",
   "status": "partial",
   "theorems": [
    "epsel_stale_refuted",
    "epsel_timeouts"
   ],
   "note": "REFUTED: the reference of a delivered socket to its old entry is kept, and the next charge of that socket removes whatever is there; epsel_timeouts: holds when delivered sockets are settled at once"
  },
  {
   "property": "C468",
   "status": "partial",
   "theorems": [
    "epsel_empty_refuted",
    "epsel_oneshot"
   ],
   "note": "REFUTED: top of the empty heap is read when the timeout has not strictly passed"
  },
  {
   "property": "C469",
   "status": "proved",
   "theorems": [
    "epsel_cancel"
   ],
   "note": ""
  },
  {
   "property": "C470",
   "status": "partial",
   "theorems": [
    "epsel_cancel_data_refuted",
    "epsel_user_data"
   ],
   "note": "REFUTED: userData is not cleared by cancelAll; epsel_user_data: it is by unset"
  },
  {
   "property": "C471",
   "status": "partial",
   "theorems": [
    "epsel_failed_refuted"
   ],
   "note": "REFUTED: data and timeout are stored before epoll_ctl is called"
  },
  {
   "property": "C472",
   "status": "partial",
   "theorems": [
    "epsel_early_refuted",
    "epsel_oneshot"
   ],
   "note": "REFUTED: when the timeout of wait is nearer, the top socket is reported although its own timeout is far away"
  },
  {
   "property": "C473",
   "status": "proved",
   "theorems": [
    "epsel_user_data"
   ],
   "note": ""
  },
  {
   "property": "C474",
   "status": "proved",
   "theorems": [
    "netev_notify"
   ],
   "note": ""
  },
  {
   "property": "C475",
   "status": "proved",
   "theorems": [
    "netev_charge"
   ],
   "note": ""
  },
  {
   "property": "C476",
   "status": "proved",
   "theorems": [
    "netev_memory"
   ],
   "note": ""
  },
  {
   "property": "C477",
   "status": "proved",
   "theorems": [
    "netev_once"
   ],
   "note": ""
  },
  {
   "property": "C478",
   "status": "partial",
   "theorems": [
    "netev_hangup_refuted",
    "netev_notify"
   ],
   "note": "REFUTED: hang-up gives no flag and an error gives a flag most observers do not ask for; the socket is charged again and the worker spins"
  },
  {
   "property": "C479",
   "status": "partial",
   "theorems": [
    "netev_failed_refuted",
    "netev_memory"
   ],
   "note": "REFUTED: the record is freed while the poll object keeps its address"
  },
  {
   "property": "C480",
   "status": "partial",
   "theorems": [
    "netev_lost_refuted",
    "netev_notify"
   ],
   "note": "REFUTED: the calls are done after the socket is set again; when that throws they are dropped"
  },
  {
   "property": "C481",
   "status": "partial",
   "theorems": [
    "netev_leak_refuted",
    "netev_memory"
   ],
   "note": "REFUTED: the exception skips the deletion"
  },
  {
   "property": "C482",
   "status": "partial",
   "theorems": [
    "netev_sockets_refuted",
    "netev_once"
   ],
   "note": "REFUTED: each socket has its own list of observers; netev_once: at most once on each socket"
  },
  {
   "property": "C483",
   "status": "proved",
   "theorems": [
    "pollsel_pool"
   ],
   "note": ""
  },
  {
   "property": "C484",
   "status": "proved",
   "theorems": [
    "pollsel_oneshot"
   ],
   "note": ""
  },
  {
   "property": "C485",
   "status": "partial",
   "theorems": [
    "pollsel_events_refuted",
    "pollsel_pool"
   ],
   "note": "REFUTED: POLL_OUT, POLL_PRI, POLL_ERR are codes of a signal; output is watched as POLLPRI, exception as POLLIN|POLLOUT; pollsel_pool: input is right"
  },
  {
   "property": "C486",
   "status": "partial",
   "theorems": [
    "pollsel_cancel_refuted",
    "pollsel_pool"
   ],
   "note": "REFUTED: cancelAllVt leaves the pool; pollsel_pool holds before it"
  },
  {
   "property": "C487",
   "status": "proved",
   "theorems": [
    "tcp_protocol"
   ],
   "note": ""
  },
  {
   "property": "C488",
   "status": "proved",
   "theorems": [
    "tcp_wake_not_lost"
   ],
   "note": ""
  },
  {
   "property": "C489",
   "status": "proved",
   "theorems": [
    "tcp_wake_count"
   ],
   "note": ""
  },
  {
   "property": "C490",
   "status": "proved",
   "theorems": [
    "tcp_removal"
   ],
   "note": ""
  },
  {
   "property": "C491",
   "status": "partial",
   "theorems": [
    "tcp_both_refuted",
    "tcp_removal"
   ],
   "note": "REFUTED: the mask input|output falls to the default branch of workerEx and the connection is removed without a call; tcp_removal: true for single events"
  },
  {
   "property": "C492",
   "status": "partial",
   "theorems": [
    "tcp_accept_wake_refuted",
    "tcp_wake_not_lost"
   ],
   "note": "REFUTED: reuse does not set the sleeping state, so the wake-up is only recorded; tcp_wake_not_lost: true for the other callbacks"
  },
  {
   "property": "C493",
   "status": "partial",
   "theorems": [
    "tcp_reason_refuted",
    "tcp_wake_count"
   ],
   "note": "REFUTED: the reason is one variable written before the state is changed; tcp_wake_count: it is always a passed reason"
  },
  {
   "property": "C494",
   "status": "partial",
   "theorems": [
    "tcp_stop_refuted",
    "tcp_protocol"
   ],
   "note": "REFUTED: execute after stopAll starts a thread with the connection that stop then destroys; tcp_protocol: true while the server runs"
  },
  {
   "property": "C495",
   "status": "proved",
   "theorems": [
    "fiber_control",
    "fiber_operations"
   ],
   "note": "with a zeroed context of the master fiber, see C497"
  },
  {
   "property": "C496",
   "status": "proved",
   "theorems": [
    "fiber_memory"
   ],
   "note": "with a zeroed context of the master fiber, see C497"
  },
  {
   "property": "C497",
   "status": "partial",
   "theorems": [
    "fiber_master_refuted",
    "fiber_control"
   ],
   "note": "REFUTED: createMasterFiber does not initialise stopSignal and termSignal, which switchFibers reads; fiber_control: true with zeroed memory"
  },
  {
   "property": "C498",
   "status": "partial",
   "theorems": [
    "fiber_stop_refuted",
    "fiber_control"
   ],
   "note": "REFUTED: a fiber suspended in wakeUp, declared throw(), terminates the program; fiber_control: the exception is thrown when suspended in sleep or start"
  },
  {
   "property": "C499",
   "status": "partial",
   "theorems": [
    "fiber_reason_refuted",
    "fiber_control"
   ],
   "note": "REFUTED: a fiber is also resumed by sleep of another, the old reason is returned; fiber_control: it is always the last reason sent"
  },
  {
   "property": "C500",
   "status": "partial",
   "theorems": [
    "fiber_unwind_refuted",
    "fiber_memory"
   ],
   "note": "REFUTED: switchFibers does nothing then and the loop in the destructor does not end; fiber_memory: stacks of ended fibers are freed"
  },
  {
   "property": "C501",
   "status": "partial",
   "theorems": [
    "fiber_destroy_refuted",
    "fiber_memory"
   ],
   "note": "REFUTED: checkState throws an exception kept from an earlier run and the destructor leaves; fiber_memory: stacks of ended fibers are freed"
  },
  {
   "property": "C502",
   "status": "partial",
   "theorems": [
    "fiber_caller_refuted",
    "fiber_control"
   ],
   "note": "REFUTED: the pointer to the caller is read after its destruction; fiber_control: true when fibers are not destroyed"
  },
  {
   "property": "C503",
   "status": "proved",
   "theorems": [
    "optional_refines"
   ],
   "note": "operator=(Optional &&) does not compile and is not modelled"
  },
  {
   "property": "C504",
   "status": "proved",
   "theorems": [
    "optional_objects"
   ],
   "note": ""
  },
  {
   "property": "C505",
   "status": "partial",
   "theorems": [
    "optional_self_refuted",
    "optional_refines"
   ],
   "note": "REFUTED: the old value is destroyed before the new one is built, so the reference is read after destruction (always, for a part of the own value); optional_refines: true for all other sources"
  },
  {
   "property": "C506",
   "status": "proved",
   "theorems": [
    "wait_events"
   ],
   "note": "no wake-up requests; see C507 to C512 for the rest"
  },
  {
   "property": "C507",
   "status": "partial",
   "theorems": [
    "wait_peek_refuted",
    "wait_events"
   ],
   "note": "REFUTED: before the first getNext peek gives uninitialised memory, afterwards each peek takes another event; wait_events: what the loop in it returns"
  },
  {
   "property": "C508",
   "status": "partial",
   "theorems": [
    "wait_reason_refuted"
   ],
   "note": "REFUTED: the event carries the mask 1 instead of the reason, for every reason"
  },
  {
   "property": "C509",
   "status": "partial",
   "theorems": [
    "wait_hasitems_refuted"
   ],
   "note": "REFUTED: always true, the wake-up pipe and used entries are counted"
  },
  {
   "property": "C510",
   "status": "partial",
   "theorems": [
    "wait_sockets_refuted",
    "wait_events"
   ],
   "note": "REFUTED: the other sockets of the resource stay registered; wait_events: true for resources with one socket"
  },
  {
   "property": "C511",
   "status": "partial",
   "theorems": [
    "wait_sleep_refuted"
   ],
   "note": "REFUTED: a resource that had its event stays in the set with an empty mask, which counts as signaled"
  },
  {
   "property": "C512",
   "status": "partial",
   "theorems": [
    "wait_spin_refuted",
    "wait_events"
   ],
   "note": "REFUTED: a hang-up of a socket that had its event is reported by poll() again and again and skipped; wait_events: nothing else is returned"
  },
  {
   "property": "C513",
   "status": "proved",
   "theorems": [
    "micro_exclusion"
   ],
   "note": ""
  },
  {
   "property": "C514",
   "status": "proved",
   "theorems": [
    "micro_arrival_order"
   ],
   "note": ""
  },
  {
   "property": "C515",
   "status": "proved",
   "theorems": [
    "micro_nobody_stranded"
   ],
   "note": ""
  },
  {
   "property": "C516",
   "status": "proved",
   "theorems": [
    "micro_idle_is_free"
   ],
   "note": ""
  },
  {
   "property": "C517",
   "status": "proved",
   "theorems": [
    "micro_no_dangling"
   ],
   "note": "as long as no thread ends"
  },
  {
   "property": "C518",
   "status": "partial",
   "theorems": [
    "micro_wake_after_end_refuted",
    "micro_no_dangling"
   ],
   "note": "REFUTED: the wake-up goes through a plain pointer to the sleeper of a thread that may already have left and ended; micro_no_dangling: true while the threads live"
  },
  {
   "property": "C519",
   "status": "proved",
   "theorems": [
    "tls_indexes"
   ],
   "note": ""
  },
  {
   "property": "C520",
   "status": "proved",
   "theorems": [
    "tls_refines"
   ],
   "note": ""
  },
  {
   "property": "C521",
   "status": "proved",
   "theorems": [
    "tls_values"
   ],
   "note": ""
  },
  {
   "property": "C522",
   "status": "proved",
   "theorems": [
    "tls_clear"
   ],
   "note": ""
  },
  {
   "property": "C523",
   "status": "partial",
   "theorems": [
    "tls_again_refuted",
    "tls_values"
   ],
   "note": "REFUTED: set overwrites the value that the delete function has put there; tls_values: true when the values set by delete functions have delete functions that do nothing"
  },
  {
   "property": "C524",
   "status": "partial",
   "theorems": [
    "tls_move_refuted"
   ],
   "note": "REFUTED: moveTo clears the old table, whose records delete the values the new table has now"
  },
  {
   "property": "C525",
   "status": "partial",
   "theorems": [
    "tls_value_leak_refuted"
   ],
   "note": "REFUTED: setValue has no handler, unlike ThreadVarInit::init"
  },
  {
   "property": "C526",
   "status": "proved",
   "theorems": [
    "hook_list"
   ],
   "note": ""
  },
  {
   "property": "C527",
   "status": "proved",
   "theorems": [
    "hook_thread"
   ],
   "note": ""
  },
  {
   "property": "C528",
   "status": "proved",
   "theorems": [
    "hook_exit_throws"
   ],
   "note": ""
  },
  {
   "property": "C529",
   "status": "partial",
   "theorems": [
    "hook_init_throws_refuted",
    "hook_thread"
   ],
   "note": "REFUTED for every set of two or more hooks: the exception goes to the hooks that are not initialised; hook_thread: right when nobody throws"
  },
  {
   "property": "C530",
   "status": "partial",
   "theorems": [
    "hook_start_hangs_refuted",
    "hook_thread"
   ],
   "note": "REFUTED: the caller is woken up only after the hooks returned; hook_thread: start returns when no hook throws"
  },
  {
   "property": "C531",
   "status": "proved",
   "theorems": [
    "thr_rounds"
   ],
   "note": ""
  },
  {
   "property": "C532",
   "status": "partial",
   "theorems": [
    "thr_throw_refuted",
    "thr_rounds"
   ],
   "note": "REFUTED: handleException finishes the thread twice (run and destructor of Finisher), the second time after join may have returned; thr_rounds: true when functions do not throw"
  },
  {
   "property": "C533",
   "status": "partial",
   "theorems": [
    "thr_throw_join_refuted",
    "thr_rounds"
   ],
   "note": "REFUTED: the second finish of the old thread opens the gate of the new one; thr_rounds: true when functions do not throw"
  },
  {
   "property": "C534",
   "status": "partial",
   "theorems": [
    "thr_no_thread_refuted"
   ],
   "note": "REFUTED: the gate closed by start is not opened again"
  },
  {
   "property": "C535",
   "status": "partial",
   "theorems": [
    "thr_early_join_refuted",
    "thr_rounds"
   ],
   "note": "REFUTED: the context is reset before the gate is opened, a start in between succeeds; thr_rounds: true when each start is followed by join"
  },
  {
   "property": "C536",
   "status": "partial",
   "theorems": [
    "thr_two_clients_refuted",
    "thr_rounds"
   ],
   "note": "REFUTED: join resets the context of a thread started meanwhile; thr_rounds: true for one client that joins"
  },
  {
   "property": "C537",
   "status": "proved",
   "theorems": [
    "apc_first"
   ],
   "note": ""
  },
  {
   "property": "C538",
   "status": "partial",
   "theorems": [
    "apc_second_refuted",
    "apc_first"
   ],
   "note": "REFUTED: the loop ends only when the old head was NULL, so that only one call ever returns, in all schedules; apc_first: it is the first one"
  },
  {
   "property": "C539",
   "status": "partial",
   "theorems": [
    "apc_never_run_refuted"
   ],
   "note": "REFUTED: getNext returns the message itself, the search for the last one never ends; no message is ever run, in all schedules"
  },
  {
   "property": "C540",
   "status": "partial",
   "theorems": [
    "apc_reject_refuted"
   ],
   "note": "REFUTED: the same message is rejected for ever"
  },
  {
   "property": "C541",
   "status": "partial",
   "theorems": [
    "apc_sleep_refuted"
   ],
   "note": "REFUTED: impSleep calls Thread::sleep, which calls impSleep; proved right for other threads"
  },
  {
   "property": "C542",
   "status": "proved",
   "theorems": [
    "svc_active"
   ],
   "note": ""
  },
  {
   "property": "C543",
   "status": "partial",
   "theorems": [
    "svc_absent_refuted",
    "svc_absent"
   ],
   "note": "REFUTED: removing the last object by pointer leaves an empty stack, whose first item is then read and throws; svc_absent: true when objects are removed from the top only"
  },
  {
   "property": "C544",
   "status": "proved",
   "theorems": [
    "svc_all"
   ],
   "note": ""
  },
  {
   "property": "C545",
   "status": "proved",
   "theorems": [
    "cmd_items"
   ],
   "note": ""
  },
  {
   "property": "C546",
   "status": "proved",
   "theorems": [
    "cmd_calls"
   ],
   "note": ""
  },
  {
   "property": "C547",
   "status": "proved",
   "theorems": [
    "cmd_order"
   ],
   "note": ""
  },
  {
   "property": "C548",
   "status": "partial",
   "theorems": [
    "cmd_empty_refuted",
    "cmd_items"
   ],
   "note": "REFUTED: peek reads a[0] before it tests the length; cmd_items: harmless when the characters are followed by a zero, as for the arguments of a program"
  },
  {
   "property": "C549",
   "status": "proved",
   "theorems": [
    "mt_start"
   ],
   "note": ""
  },
  {
   "property": "C550",
   "status": "proved",
   "theorems": [
    "mt_stopped"
   ],
   "note": ""
  },
  {
   "property": "C551",
   "status": "partial",
   "theorems": [
    "mt_restart_refuted",
    "mt_stopped"
   ],
   "note": "REFUTED: manStart is not tested again under the lock; mt_stopped: true when no call is in progress"
  },
  {
   "property": "C552",
   "status": "partial",
   "theorems": [
    "mt_failed_refuted"
   ],
   "note": "REFUTED: a failed start sets manStart, later messages are queued and never processed, and their calls return normally"
  }
 ]
}