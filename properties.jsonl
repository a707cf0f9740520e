{"id": "C01", "title": "Base64 encode/decode round-trip", "statement": "Feeding any byte sequence through the Base64 encoder (write every byte, then flush) and feeding the resulting characters to the Base64 decoder yields exactly the original bytes, for the standard and the URL-safe alphabet, with or without padding.", "quantifier": "all byte sequences of every length, both alphabets, both padding modes", "why_tests_cant": "Unbounded input length and 256^n contents; the tail handling (n mod 3) interacts with the buffering state, tests sample only a few strings.", "anchors": ["src/lightspeed/utils/base64.h: ByteToBase64Convert, Base64ToByteConvert", "src/lightspeed/utils/base64.cpp"]}
{"id": "C02", "title": "Base64 output is the RFC 4648 text", "statement": "The characters emitted by the Base64 encoder for any byte sequence are exactly the ones the 6-bit-group definition of RFC 4648 prescribes (big-endian 6-bit groups of the bit string, zero-extended, with '=' filling up to a multiple of four when padding is on).", "quantifier": "all byte sequences, both alphabets, both padding modes", "why_tests_cant": "A symmetric bug in encoder and decoder survives every round-trip test; only a comparison with an independent definition on all inputs excludes it.", "anchors": ["src/lightspeed/utils/base64.cpp: ByteToBase64Convert::write, flush"]}
{"id": "C03", "title": "Base32 encode/decode round-trip (padded)", "statement": "With a padding character configured, decoding the Base32 encoding of any byte sequence gives back the bytes.", "quantifier": "all byte sequences", "why_tests_cant": "Five different tail lengths times unbounded content.", "anchors": ["src/lightspeed/utils/base32.h", "src/lightspeed/utils/base32.cpp: ByteToBase32Convert, Base32ToByteConvert"]}
{"id": "C04", "title": "Base32 without padding keeps all data", "statement": "With padding switched off the Base32 encoder still emits enough characters for the decoder to recover every byte.", "quantifier": "all byte sequences, no padding character", "why_tests_cant": "The defect depends on the tail length; a test with a multiple of five bytes passes.", "anchors": ["src/lightspeed/utils/base32.cpp: ByteToBase32Convert::flush"]}
{"id": "C05", "title": "Base16 encode/decode round-trip", "statement": "Decoding the hexadecimal encoding of any byte sequence with a decoder constructed for the same letter case gives back the bytes, and the encoder emits exactly two characters of the chosen alphabet per byte.", "quantifier": "all byte sequences, both letter cases", "why_tests_cant": "All 256 byte values in all positions and lengths.", "anchors": ["src/lightspeed/utils/base16.h", "src/lightspeed/utils/base16.cpp"]}
{"id": "C06", "title": "Base85 encode/decode round-trip", "statement": "Decoding the Base85 text produced for a non-empty byte sequence gives back exactly the bytes.", "quantifier": "all byte sequences", "why_tests_cant": "2^32 values per group plus four tail lengths; the carry through base 85 modulo 2^32 is not exercised by sampling.", "anchors": ["src/lightspeed/utils/base85.h", "src/lightspeed/utils/base85.cpp"]}
{"id": "C07", "title": "URL encoding round-trip and output alphabet", "statement": "URL-encoding any byte string yields only unreserved characters and %XX escapes with two upper-case hexadecimal digits, and URL-decoding the result gives back the bytes.", "quantifier": "all byte strings", "why_tests_cant": "Context-free per byte but the decoder is a state machine across bytes; all strings must be covered.", "anchors": ["src/lightspeed/utils/urlencode.h: UrlEncodeConvert, UrlDecodeConvert", "src/lightspeed/utils/urlencode.cpp"]}
{"id": "C08", "title": "UTF-8 conversion round-trip", "statement": "Converting any sequence of code points (up to the 31-bit range the library encodes) to UTF-8 and back gives the same sequence.", "quantifier": "all sequences of code points", "why_tests_cant": "Around a million code points per position and boundary conditions at every length class.", "anchors": ["src/lightspeed/base/streams/utf.h: WideToUtf8Convert, Utf8ToWideConvert", "src/lightspeed/base/streams/utf.cpp"]}
{"id": "C09", "title": "UTF-8 output is the standard (shortest) encoding", "statement": "The bytes produced for a code point are the ones prescribed by RFC 3629 (shortest form).", "quantifier": "all code points", "why_tests_cant": "Off-by-one at class boundaries affects single values among a million and survives the round-trip.", "anchors": ["src/lightspeed/base/streams/utf.cpp: WideToUtf8Convert::write"]}
{"id": "C10", "title": "Compressed unsigned numbers round-trip and are self-delimiting", "statement": "Every 64-bit unsigned value is written in 1..9 bytes, the first byte alone determines the length, decoding gives the value back whatever bytes follow, and the encoding never shrinks as the value grows.", "quantifier": "all values 0..2^64-1, all trailing bytes", "why_tests_cant": "2^64 values.", "anchors": ["src/lightspeed/base/streams/compressNumb.h", "src/lightspeed/base/streams/compressNumb.cpp"]}
{"id": "C11", "title": "Compressed signed numbers round-trip", "statement": "Every 64-bit signed value encoded with the signed variant decodes to itself.", "quantifier": "all values -2^63..2^63-1", "why_tests_cant": "2^64 values with extremes at the sign boundary.", "anchors": ["src/lightspeed/base/streams/compressNumb.cpp: compressSigned, decompressSigned"]}
{"id": "C12", "title": "Binary serialisation round-trip", "statement": "Any value tree (booleans, integers of every width except the least 64-bit one which property C11 covers, characters, arrays, named sections, default-valued fields, dynamic sections chosen by name) written by the binary writer is read back unchanged by the binary reader, leaving the following bytes unread.", "quantifier": "all schemas and values of the schema, all continuations of the stream", "why_tests_cant": "Unbounded nesting and lengths.", "anchors": ["src/lightspeed/base/serialize/binFormat.h: BinaryWriter, BinaryReader"]}
{"id": "C13", "title": "CRC-32 is the standard polynomial remainder and independent of chunking", "statement": "The checksum of a byte sequence equals the bitwise CRC-32 (reflected polynomial 0xEDB88320) and does not depend on how the sequence is split over calls.", "quantifier": "all byte sequences and all splittings", "why_tests_cant": "Table-driven implementation with 256 entries; unbounded sequences.", "anchors": ["src/lightspeed/utils/crc32.h", "src/lightspeed/utils/crc32.cpp"]}
{"id": "C14", "title": "CRC-32 detects every single-byte and every short-burst change", "statement": "Two byte sequences of equal length that differ in exactly one byte never have the same checksum.", "quantifier": "all sequences, positions and byte values", "why_tests_cant": "Universal over positions and lengths.", "anchors": ["src/lightspeed/utils/crc32.cpp"]}
{"id": "C15", "title": "LZW compression round-trip", "statement": "Decompressing the compressed form of any byte sequence gives back exactly that sequence, including after dictionary resets and code-width changes.", "quantifier": "all byte sequences of every length, every admissible maximum code width", "why_tests_cant": "The width-change and reset points occur after thousands of bytes and depend on the whole history.", "anchors": ["src/lightspeed/utils/lzw.h", "src/lightspeed/utils/lzw.cpp", "src/lightspeed/utils/lzw.tcc"]}
{"id": "C16", "title": "MD5 and SHA-1 digests do not depend on chunking", "statement": "The digest computed over a byte sequence delivered in arbitrary pieces is the digest of the concatenation, and the padded message processed is the one the standard prescribes.", "quantifier": "all byte sequences and all splittings", "why_tests_cant": "Buffering boundary cases at 55/56/63/64 bytes combined with arbitrary chunk sizes.", "anchors": ["src/lightspeed/utils/impl/md5.cpp", "src/lightspeed/utils/impl/sha1.cpp"]}
{"id": "C17", "title": "The ordered map behaves as a finite map", "statement": "After any sequence of insert, replace, erase and lookup operations the AVL-tree based map answers exactly like the mathematical finite map obtained by the same operations (insert of an existing key keeps the old value and reports it).", "quantifier": "all operation histories, all key orders", "why_tests_cant": "State space is unbounded; rebalancing cases depend on the whole history.", "anchors": ["src/lightspeed/base/containers/avltreenode.tcc", "src/lightspeed/base/containers/avltree.h", "src/lightspeed/base/containers/map.h"]}
{"id": "C18", "title": "The map's tree stays balanced", "statement": "After any history of insertions and removals the depth of the tree holding n entries is at most 1.4405 log2(n+2) (AVL bound), so the fixed 64-entry path stack of iterators cannot overflow for any count that fits in memory.", "quantifier": "all operation histories", "why_tests_cant": "Worst-case shapes need adversarial histories of exponential length.", "anchors": ["src/lightspeed/base/containers/avltreenode.tcc: insertBalance, removeBalance", "src/lightspeed/base/containers/avltreenode.h: maxHeight"]}
{"id": "C19", "title": "Map iteration enumerates the entries in key order", "statement": "Forward iteration returns every entry once in ascending key order, backward iteration in descending order, and seeking positions the iterator at the first entry not before the key in the chosen direction.", "quantifier": "all reachable maps, all seek keys, both directions", "why_tests_cant": "The iterator keeps an explicit path stack whose correctness depends on the tree shape.", "anchors": ["src/lightspeed/base/containers/avltreenode.tcc: iterator initPath, goNext, initPathSearch"]}
{"id": "C20", "title": "Deque refines a list; queue is FIFO and stack is LIFO", "statement": "After any sequence of push and pop operations at either end (including internal reallocations) the deque contains exactly the list obtained by the same list operations; pops on the empty deque fail.", "quantifier": "all operation histories", "why_tests_cant": "Ring wrap-around and growth interact; unbounded histories.", "anchors": ["src/lightspeed/base/containers/deque.h", "src/lightspeed/base/containers/deque.tcc", "src/lightspeed/base/containers/queue.h", "src/lightspeed/base/containers/stack.h"]}
{"id": "C21", "title": "HeapSort sorts", "statement": "Sorting any array with the heap sort yields an ordered permutation of it.", "quantifier": "all arrays, all total preorders", "why_tests_cant": "n! permutations.", "anchors": ["src/lightspeed/base/containers/sort.h", "src/lightspeed/base/containers/sort.tcc"]}
{"id": "C22", "title": "Priority queue pops in priority order", "statement": "Popping from the priority queue removes exactly the top element; the remaining elements stay and come out in order.", "quantifier": "all operation histories", "why_tests_cant": "Needs arbitrary histories.", "anchors": ["src/lightspeed/base/containers/priorityQueue.h"]}
{"id": "C23", "title": "Linked list refines a list", "statement": "insertFirst, add, copying and removal on the linked list have the effect of the corresponding list operations, for every history.", "quantifier": "all operation histories", "why_tests_cant": "Stale tail pointers manifest only in particular orders of operations.", "anchors": ["src/lightspeed/base/containers/linkedList.h"]}
{"id": "C24", "title": "B-tree of new keys", "statement": "After any history of additions of keys that are not in the tree, interleaved with searches, sizes, rank queries, iterations from the first key or from a key that is not in the tree, and clears, every answer of the B-tree is that of the sorted sequence of the added keys; the tree is balanced, all leaves are at one depth and every node but the root holds order-1 to 2*order-1 keys.", "quantifier": "all key types with a strict weak order, all orders >= 2, all such histories of fewer than 2^50 keys", "why_tests_cant": "Splits propagate according to the history.", "anchors": ["src/lightspeed/base/containers/btree.h BTree::Add/Find/Size/ItemWithRank/RankOf/Clear, BTreeIterator::Reset/BeginFrom/More/Next"]}
{"id": "C25", "title": "Memory file behaves as a byte array with a cursor", "statement": "Reads and writes on the in-memory file have exactly the effect of reads and writes on a growable byte array with a position, including overwriting in the middle, growing at the end and append mode.", "quantifier": "all operation histories", "why_tests_cant": "Arbitrary interleavings of seeks, writes and reads.", "anchors": ["src/lightspeed/base/streams/memfile.h", "src/lightspeed/base/streams/memfile.tcc"]}
{"id": "C26", "title": "Buffered writing is transparent", "statement": "Bytes written through the output buffer reach the sink exactly once and in order after flush, whatever the buffer size, write sizes and sink acceptance pattern.", "quantifier": "all write sequences, buffer sizes and sink behaviours", "why_tests_cant": "Partial acceptance by the sink is schedule dependent.", "anchors": ["src/lightspeed/base/containers/buffer.h: WriteBuffer"]}
{"id": "C27", "title": "Buffered reading is transparent", "statement": "The bytes obtained through the input buffer are the source bytes in order, whatever the buffer size, the read sizes and the chunk sizes delivered by the source.", "quantifier": "all read sequences, buffer sizes and source behaviours", "why_tests_cant": "Short reads are schedule dependent.", "anchors": ["src/lightspeed/base/containers/buffer.h: ReadBuffer"]}
{"id": "C28", "title": "Cluster allocator never hands out memory in use, and reports exactly the leaks", "statement": "For every history of allocations of any positive sizes, writes to blocks in use, deallocations through the allocator (and through the reported owner, for sizes that need no rounding) and clear, a new block does not meet any block in use, blocks in use lie inside memory obtained from the allocator behind and outside of its own bookkeeping, clear reports exactly the blocks not given back, and every area obtained is either held or was given back once.", "quantifier": "all histories, all sizes, any addresses the allocator behind may give, sizeof(AllocCluster) up to 254", "why_tests_cant": "Free-list and cluster-list corruption depends on history and on what the program writes to its blocks.", "anchors": ["src/lightspeed/base/memory/clusterAlloc.h", "src/lightspeed/base/memory/clusterAlloc.cpp"]}
{"id": "C29", "title": "Counted pointers destroy an object exactly once, at the last release", "statement": "For any history of creating, copying, moving, assigning, swapping, clearing and destroying counted pointers (variables or members of objects), where an assignment names two different pointers and does not destroy either of them, every pointer refers to what was assigned to it, an object is alive while some pointer refers to it and is destroyed exactly once when nobody does, members of destroyed objects release in turn, and isShared tells whether another pointer refers to the same object.", "quantifier": "all operation histories, any number of objects, members and pointers", "why_tests_cant": "Aliasing histories are unbounded and destruction cascades through members.", "anchors": ["src/lightspeed/base/memory/refCntPtr.h", "src/lightspeed/base/memory/allocPointer.h"]}
{"id": "C30", "title": "Shared pointers destroy an object exactly once, and their ring holds exactly the owners", "statement": "For any history of creating, copying, assigning and destroying shared pointers (variables or members of objects), where an assignment does not destroy either of the two pointers, every pointer refers to what was assigned to it, an object is destroyed exactly once when nobody refers to it any more, isShared on a non-null pointer tells whether another pointer refers to the same object, and the instances visited from a pointer are exactly the existing pointers to the same object, each once.", "quantifier": "all operation histories, any number of objects, members and pointers", "why_tests_cant": "Pointer surgery on a ring depends on the order of joins and leaves, and destruction cascades through members.", "anchors": ["src/lightspeed/base/memory/sharedResource.h", "src/lightspeed/base/memory/sharedPtr.h"]}
{"id": "C31", "title": "Weak reference: no access after the target is withdrawn", "statement": "When setNull has returned, every non-null pointer obtained by locking the weak reference has been given back, and later locks return null; before setNull is called, locking gives the target.", "quantifier": "all interleavings of any number of threads (fewer than 2^62 locks)", "why_tests_cant": "Interleavings.", "anchors": ["src/lightspeed/base/memory/weakref.h"]}
{"id": "C32", "title": "FastLock gives mutual exclusion", "statement": "At any moment at most one thread is between a completed lock (or successful tryLock) and its unlock.", "quantifier": "all interleavings of any number of threads at the granularity of single atomic operations", "why_tests_cant": "Schedules cannot be enumerated.", "anchors": ["src/lightspeed/mt/fastlock.h: FastLock::lock, tryLock, unlock, addToQueue, lockSlow"]}
{"id": "C33", "title": "FastLock hands over in arrival order and never strands a waiter", "statement": "Threads obtain the lock in the order in which their atomic enqueue happened, and when an unlock completes while somebody is queued, the head of the queue has been made owner.", "quantifier": "all interleavings", "why_tests_cant": "Schedules cannot be enumerated.", "anchors": ["src/lightspeed/mt/fastlock.h: FastLock::unlock"]}
{"id": "C34", "title": "Recursive FastLock gives mutual exclusion across threads", "statement": "Two different threads never own the recursive lock at once.", "quantifier": "all interleavings including unlockSaveRecusion", "why_tests_cant": "Race window of a few instructions.", "anchors": ["src/lightspeed/mt/fastlock.h: FastLockR"]}
{"id": "C35", "title": "Level lock / RW lock: all owners share one level", "statement": "Owners present at one time all use the same level; in particular a writer is alone (writers exclude each other and readers).", "quantifier": "all histories of lock/tryLock/unlock", "why_tests_cant": "Depends on history.", "anchors": ["src/lightspeed/mt/rwlock.h: LevelLock, RWLock"]}
{"id": "C36", "title": "Level lock / RW lock stays usable after contention", "statement": "When nobody owns the lock and nobody waits, the next lock request is granted immediately.", "quantifier": "all histories", "why_tests_cant": "Requires a history with contention followed by release.", "anchors": ["src/lightspeed/mt/rwlock.h: LevelLock::lockAsync"]}
{"id": "C37", "title": "Semaphore conserves permits", "statement": "Initial count = available + held at all times; a waiter is parked only while no permit is available.", "quantifier": "all histories of lock/unlock by any number of threads", "why_tests_cant": "Schedules.", "anchors": ["src/lightspeed/mt/semaphore.h"]}
{"id": "C38", "title": "Gate: no lost wake-up", "statement": "A thread that waits on a gate which is open, or is opened after it started to wait, is eventually notified: no reachable state has an open gate with a parked, un-notified waiter once the opener has finished.", "quantifier": "all interleavings", "why_tests_cant": "Race between check and enqueue.", "anchors": ["src/lightspeed/mt/gate.h", "src/lightspeed/mt/syncPt.h", "src/lightspeed/mt/syncPt.cpp"]}
{"id": "C39", "title": "Promise delivers exactly once", "statement": "Every observer registered on a future is called exactly once with the first resolution, no matter whether it registers before, during or after the resolution; later resolutions are ignored.", "quantifier": "all interleavings of registrations and resolutions", "why_tests_cant": "Race between registration and resolution.", "anchors": ["src/lightspeed/base/actions/promise.tcc: resolveInternal, registerObserver"]}
{"id": "C40", "title": "Formatting and parsing of unsigned integers round-trip", "statement": "Formatting an unsigned integer in a base from 2 to 36 gives its numeral without leading zeros; parsing this text, whatever non-digit follows, gives the integer back.", "quantifier": "all unsigned 64-bit values, all bases, all texts that follow", "why_tests_cant": "2^64 values.", "anchors": ["src/lightspeed/base/text/toString.h", "src/lightspeed/base/text/textParser.tcc: stringToUnsignedNumber, stringToSignedNumber"]}
{"id": "C41", "title": "Line reader splits without loss", "statement": "The line reader returns the lines of the text: each is cut at the first place where the separator occurs, no line contains the separator, and the lines with their separators make up the text (up to a separator missing at the end).", "quantifier": "all texts, all separators", "why_tests_cant": "Overlapping separators and end-of-input combinations.", "anchors": ["src/lightspeed/base/text/textLineReader.h"]}
{"id": "C42", "title": "JSON text round-trip", "statement": "Parsing the serialised text of any JSON value (null, booleans, integers, byte strings, arrays, objects, nested to any depth) gives an equal value.", "quantifier": "all JSON values", "why_tests_cant": "Unbounded nesting; escaping of all byte values.", "anchors": ["src/lightspeed/utils/json/jsonserializer.tcc", "src/lightspeed/utils/json/jsonparser.tcc"]}
{"id": "C43", "title": "Binary JSON round-trip", "statement": "Parsing the binary JSON form of a value gives an equal value.", "quantifier": "all JSON values", "why_tests_cant": "Unbounded nesting and number ranges.", "anchors": ["src/lightspeed/utils/json/binjson.cpp"]}
{"id": "C44", "title": "Day number of a calendar date is the proleptic Gregorian one", "statement": "For valid dates the day number is the number of days since year 0 in the Gregorian calendar; consecutive dates have consecutive numbers.", "quantifier": "all years >= 0 and all valid dates", "why_tests_cant": "Leap-year rules over unbounded years.", "anchors": ["src/lightspeed/base/datetime.cpp: dayNumber, daysToYear"]}
{"id": "C45", "title": "Calendar date recovered from a day number is valid", "statement": "Converting a day number to year/month/day gives the valid date that has this number.", "quantifier": "all day numbers >= 0", "why_tests_cant": "First-of-month cases for all years.", "anchors": ["src/lightspeed/base/datetime.cpp: dateFromDayNumber"]}
{"id": "C46", "title": "Rational arithmetic is exact", "statement": "Sum, difference, product and quotient of rational numbers are exact and normalised when no intermediate overflows.", "quantifier": "all rationals in range, including negative ones", "why_tests_cant": "Unbounded pairs.", "anchors": ["src/lightspeed/base/rational.h"]}
{"id": "C47", "title": "Base85 decoder inverts the standard Base85 text", "statement": "For every byte sequence, feeding the standard Base85 text of it (five base-85 digits per four bytes, r+1 digits for a tail of r bytes) to the Base85 decoder and flushing yields exactly the bytes.", "quantifier": "all byte sequences, including the empty one; push and pull driving", "why_tests_cant": "2^32 values per group; the completion of a truncated group must not carry into the kept bytes nor overflow 32 bits for any value.", "anchors": ["src/lightspeed/utils/base85.cpp: Base85ToByteConvert::write, flush"]}
{"id": "C48", "title": "The UTF-8 decoder is safe on arbitrary bytes", "statement": "Feeding any byte sequence to the UTF-8 decoder either produces characters or, when invalid input is not to be skipped, reports an exception; it never computes a value outside the range of the character type (undefined behaviour).", "quantifier": "all byte sequences, both error policies", "why_tests_cant": "Malformed input space is unbounded; only particular lead bytes overflow the accumulator.", "anchors": ["src/lightspeed/base/streams/utf.h: Utf8ToWideConvert"]}
{"id": "C49", "title": "Serialised strings are read back unchanged", "statement": "A string stored through the serialiser with the binary writer is loaded back unchanged by the binary reader.", "quantifier": "all strings", "why_tests_cant": "Unbounded lengths; the defect shows only from two characters on and depends on what follows in the stream.", "anchors": ["src/lightspeed/base/serialize/lightSpeedTypes.h: SerializableString", "src/lightspeed/base/serialize/serializer.h: Array::next"]}
{"id": "C50", "title": "LZW streams can follow one another", "statement": "When two messages are compressed and the two finished streams are written to one decompressor one after the other, the decompressor returns the first message followed by the second.", "quantifier": "all pairs of byte sequences", "why_tests_cant": "The dictionary left over from the first message only shows when the second one uses codes that collide with it.", "anchors": ["src/lightspeed/utils/lzw.tcc: LZWDecompressBase::write (endData branch)", "src/lightspeed/utils/lzw.tcc: LZWCompressBase::flush", "src/lightspeed/utils/lzw.h: endData"]}
{"id": "C51", "title": "Months and days out of range are adjusted", "statement": "Given a month above 12 or a day above the length of the month, the day number is that of the date so many days after the first of the (carried over) month, as the header promises.", "quantifier": "all years >= 0, all months and days", "why_tests_cant": "The adjusting loop mixes year and month steps; errors show only on some leap years.", "anchors": ["src/lightspeed/base/datetime.h: dayNumber", "src/lightspeed/base/datetime.cpp: dayNumber"]}
{"id": "C52", "title": "Unix time converts to the calendar date it denotes", "statement": "Date::fromUnixTime(t) is 1 January 1970 plus t/86400 days; converting back gives the start of that day.", "quantifier": "all non-negative times", "why_tests_cant": "A round-trip test passes although the date itself is wrong; the claim is about all times.", "anchors": ["src/lightspeed/base/datetime.h: fromUnixTime", "src/lightspeed/base/datetime.cpp: unixTimeToDays, daysToUnixTime"]}
{"id": "C53", "title": "Comparison of rationals is the numeric order", "statement": "a < b on rationals is true exactly when the fraction a is less than the fraction b.", "quantifier": "all rationals whose cross products fit 64 bits, including negative ones", "why_tests_cant": "Unbounded pairs and signs.", "anchors": ["src/lightspeed/base/rational.h: lessThan"]}
{"id": "C54", "title": "floor and ceil of a rational", "statement": "floor() is the largest integer not above the number and ceil() the smallest not below it.", "quantifier": "all rationals, negative ones included", "why_tests_cant": "Mixed signed/unsigned division goes wrong on one sign only.", "anchors": ["src/lightspeed/base/rational.h: floor, ceil"]}
{"id": "C55", "title": "Powers of rationals", "statement": "power(e) is the number multiplied by itself e times.", "quantifier": "all rationals and exponents without overflow", "why_tests_cant": "Square-and-multiply over all exponents.", "anchors": ["src/lightspeed/base/rational.h: power, powerNumber"]}
{"id": "C56", "title": "gcd is the greatest common divisor", "statement": "rational::gcd terminates and returns the greatest common divisor; gcd with zero is the other number.", "quantifier": "all pairs of 64 bit numbers", "why_tests_cant": "2^128 pairs.", "anchors": ["src/lightspeed/base/rational.h: gcd"]}
{"id": "C57", "title": "Formatting and parsing of signed integers round-trip", "statement": "Formatting a signed integer and parsing the text in the same base gives the integer back.", "quantifier": "all signed 64-bit values including the smallest one, all bases", "why_tests_cant": "2^64 values; the failing one is a single value.", "anchors": ["src/lightspeed/base/text/toString.h: ToStringSigned", "src/lightspeed/base/text/textParser.tcc: parseSignedNumber"]}
{"id": "C58", "title": "Numbers that do not fit are not accepted", "statement": "Parsing a text that denotes a number too large for the type reports failure.", "quantifier": "all numerals", "why_tests_cant": "Unbounded texts.", "anchors": ["src/lightspeed/base/text/textParser.tcc: parseUnsignedNumber"]}
{"id": "C59", "title": "A copied deque, queue or stack has the items of the original", "statement": "Copying a deque (or a queue or stack built on it) gives a second container holding copies of the same items, usable and destroyable independently.", "quantifier": "all deques", "why_tests_cant": "Reading uninitialised memory often looks right in a test; the claim must hold for every content.", "anchors": ["src/lightspeed/base/containers/deque.h", "src/lightspeed/base/memory/stdAlloc.h"]}
{"id": "C60", "title": "Heap push and pop keep the largest item on top", "statement": "On any array, after any sequence of heap pushes and pops, the items are a permutation of the original array, the top is a largest item of the heap, and pop takes exactly that item out and puts it right behind the heap.", "quantifier": "all arrays, all histories of push and pop, all strict weak orderings", "why_tests_cant": "All histories and all orders.", "anchors": ["src/lightspeed/base/containers/sort.h", "src/lightspeed/base/containers/sort.tcc"]}
{"id": "C61", "title": "Taking an item from the middle of a heap keeps it a heap", "statement": "pop(at) removes the item at the given position and leaves a heap, so later pops still deliver the largest item.", "quantifier": "all heaps and positions", "why_tests_cant": "The order breaks only for some shapes of the heap and shows up later.", "anchors": ["src/lightspeed/base/containers/sort.tcc"]}
{"id": "C62", "title": "Linked list calls have the effect of list operations", "statement": "insertFirst, add, insertAfter, insertBefore, eraseFirst, clear, assignment from another list, removal through an iterator of an item that is first or is followed by another one, and all readers of the linked list give exactly the answers of a plain list, for every history; the iterator returned by such a removal stands at the item that followed.", "quantifier": "all operation histories in which a removal through an iterator does not remove the last of several items", "why_tests_cant": "Link and tail pointer updates depend on the whole history.", "anchors": ["src/lightspeed/base/containers/linkedList.h"]}
{"id": "C63", "title": "getLast of a const linked list", "statement": "On a const list, getLast returns the last item.", "quantifier": "all lists", "why_tests_cant": "The returned item is right for lists of one item.", "anchors": ["src/lightspeed/base/containers/linkedList.h"]}
{"id": "C64", "title": "Iterators returned by insertion designate the inserted item", "statement": "The iterator returned by add, insertFirst, insertAfter or insertBefore can be used for a later removal or insertion at the inserted item.", "quantifier": "all histories and returned iterators", "why_tests_cant": "The returned iterator carries a hidden predecessor that only later operations use.", "anchors": ["src/lightspeed/base/containers/linkedList.h"]}
{"id": "C65", "title": "Self-assignment of a linked list", "statement": "Assigning a linked list to itself keeps its items.", "quantifier": "all lists", "why_tests_cant": "Aliasing of source and target.", "anchors": ["src/lightspeed/base/containers/linkedList.h"]}
{"id": "C66", "title": "Memory file without append mode", "statement": "Once the append mode is switched off, every history of reads, writes, peeks, reads and writes at an offset, seeks and size changes on the in-memory file gives the answers of a growable byte array with a position, and bytes written at an offset are read back from it.", "quantifier": "all operation histories whose requests stay below 2^64", "why_tests_cant": "Arbitrary interleavings of seeks, writes and size changes.", "anchors": ["src/lightspeed/base/streams/memfile.h: MemFile", "src/lightspeed/base/streams/memfile.tcc"]}
{"id": "C67", "title": "Append mode keeps the content", "statement": "In append mode a write puts the data exactly behind the existing content, wherever the position is.", "quantifier": "all contents, positions and data", "why_tests_cant": "Positions inside, at and behind the end.", "anchors": ["src/lightspeed/base/streams/memfile.h: MemFile", "src/lightspeed/base/streams/memfile.tcc"]}
{"id": "C68", "title": "Appending does not disturb the reader", "statement": "In append mode a write does not make the reader skip bytes it has not read.", "quantifier": "all contents, positions and data", "why_tests_cant": "Depends on the amount of unread data at the time of the write.", "anchors": ["src/lightspeed/base/streams/memfile.h: MemFile", "src/lightspeed/base/streams/memfile.tcc"]}
{"id": "C69", "title": "A closed memory file refuses data", "statement": "After closeOutput the in-memory file accepts no more data.", "quantifier": "all states", "why_tests_cant": "Requires a write after close.", "anchors": ["src/lightspeed/base/streams/memfile.h: MemFile", "src/lightspeed/base/streams/memfile.tcc"]}
{"id": "C70", "title": "Text file reads are exact and stay inside the text", "statement": "Reads and peeks of the read-only text file return the bytes at the position (at most the number asked for) and reads at an offset never leave the text, for positions not behind the end.", "quantifier": "all texts, sizes, positions not behind the end and all offsets", "why_tests_cant": "Sizes around and above the remaining length.", "anchors": ["src/lightspeed/base/streams/memfile.h: MemFileStr", "src/lightspeed/base/streams/memfile.cpp"]}
{"id": "C71", "title": "Seeking behind the end of a text file is harmless", "statement": "After setPos to any position, also behind the end, reading returns no bytes outside of the text.", "quantifier": "all positions", "why_tests_cant": "Needs positions behind the end.", "anchors": ["src/lightspeed/base/streams/memfile.h: MemFileStr", "src/lightspeed/base/streams/memfile.cpp"]}
{"id": "C72", "title": "Stream buffer is transparent", "statement": "For every buffer size, every source, every sink (delivering or accepting any portions) and every sequence of read, peek, canRead, fetch, discardInput, write and flush calls on an IOBuffer in which nothing is written while the buffer is completely filled with unread input, the reader gets the bytes of the source in order and without loss, the bytes that reached the sink are a beginning of the bytes written, and after a flush they are all of them.", "quantifier": "all buffer sizes, sources, sinks with arbitrary portions, and call histories", "why_tests_cant": "The reading and the writing share one array whose parts move with every call; only particular interleavings and portion sizes would show an overlap.", "anchors": ["src/lightspeed/base/streams/fileiobuff.h: IOBuffer", "src/lightspeed/base/streams/fileiobuff.tcc: read, write, fetch, peek, canRead, intFlush, intFetch, adjustWritePos, getWriteSpace"]}
{"id": "C73", "title": "Stream buffer with reserved write space", "statement": "With reserveWrite of at least one byte (buffer of at least two bytes), every interleaving of read, canRead, discardInput, write and flush calls on an IOBuffer is transparent: the reader gets the source, the sink gets what was written.", "quantifier": "all buffer sizes, reserves, sources, sinks and call histories without fetch and peek", "why_tests_cant": "Needs an invariant over all histories; tests try a few interleavings.", "anchors": ["src/lightspeed/base/streams/fileiobuff.h: IOBuffer", "src/lightspeed/base/streams/fileiobuff.tcc: read, write, fetch, peek, canRead, intFlush, intFetch, adjustWritePos, getWriteSpace", "src/lightspeed/base/streams/fileiobuff.tcc: reserveWrite"]}
{"id": "C74", "title": "Writing never damages unread input", "statement": "A write to an IOBuffer never changes the bytes that a later read returns, also when the input filled the buffer completely.", "quantifier": "all buffer sizes, inputs and call histories", "why_tests_cant": "The damage needs a source that fills the buffer exactly and a write before the first byte is read.", "anchors": ["src/lightspeed/base/streams/fileiobuff.h: IOBuffer", "src/lightspeed/base/streams/fileiobuff.tcc: read, write, fetch, peek, canRead, intFlush, intFetch, adjustWritePos, getWriteSpace"]}
{"id": "C75", "title": "Bytes put back after a flush are read next", "statement": "After any transparent history followed by a flush, putBack of fewer bytes than lie below the reading position succeeds; the following reads return these bytes and then the remaining input, and the output is not disturbed.", "quantifier": "all histories, sequences put back and histories afterwards", "why_tests_cant": "Quantifies over all histories before and after.", "anchors": ["src/lightspeed/base/streams/fileiobuff.tcc: putBack", "src/lightspeed/base/streams/fileiobuff.h: IOBuffer::putBack"]}
{"id": "C76", "title": "One byte can always be put back after reading", "statement": "After a read that returned at least one byte, putBack of one byte succeeds (documented in IInputBuffer::putBack).", "quantifier": "all inputs and buffer sizes", "why_tests_cant": "Fails only at particular reading positions.", "anchors": ["src/lightspeed/base/streams/fileiobuff.tcc: putBack", "src/lightspeed/base/streams/fileiobuff_ifc.h: putBack"]}
{"id": "C77", "title": "Putting bytes back does not change the output", "statement": "putBack on an IOBuffer never changes the bytes that were written and not flushed yet.", "quantifier": "all histories of reads and writes", "why_tests_cant": "Needs pending output to lie behind the reading position.", "anchors": ["src/lightspeed/base/streams/fileiobuff.tcc: putBack, getWriteSpace"]}
{"id": "C78", "title": "peek never reports more bytes than there are", "statement": "peek on an IOBuffer returns at most the number of bytes that are ready, for every size argument including zero.", "quantifier": "all histories and sizes", "why_tests_cant": "The special case of size zero computes an unsigned difference in the wrong order.", "anchors": ["src/lightspeed/base/streams/fileiobuff.tcc: peek"]}
{"id": "C79", "title": "Buffered writing with whole blocks is transparent", "statement": "For every sink, buffer size and history of write, flush and unwrite calls on a WriteBuffer in which an item is written into a full buffer only when the sink takes whole blocks, the items that reached the sink are a beginning of the items written, after a flush they are all of them in order, also when the sink takes the items in portions during the flush; unwrite takes back the last item and always works directly after a write.", "quantifier": "all sinks, portion patterns, buffer sizes and histories", "why_tests_cant": "The portions a sink takes depend on the schedule.", "anchors": ["src/lightspeed/base/containers/buffer.h: WriteBuffer::write, flush, unwrite, __fastflush"]}
{"id": "C80", "title": "peek(n) returns the n-th item from the current position", "statement": "After any history, ReadBuffer::peek(n) returns the item that the (n+1)-th following getNext will return.", "quantifier": "all histories, sources and n", "why_tests_cant": "Works as long as nothing was read, and after each compaction of the buffer.", "anchors": ["src/lightspeed/base/containers/buffer.h: ReadBuffer::peek(natural)"]}
{"id": "C81", "title": "Reading behind the end is reported", "statement": "ReadBuffer::getNext on an exhausted source reports IteratorNoMoreItems, whatever way the source signals its end.", "quantifier": "all sources, buffer sizes and histories", "why_tests_cant": "File streams signal the end by an empty block, other iterators by an exception.", "anchors": ["src/lightspeed/base/containers/buffer.h: ReadBuffer::getNext, load", "src/lightspeed/base/streams/fileio.h: SeqFileInput::blockRead"]}
{"id": "C82", "title": "peek(n) returns or throws", "statement": "ReadBuffer::peek(n) terminates for every source and n: it returns the item or throws when there is none.", "quantifier": "all sources, n and buffer sizes", "why_tests_cant": "A test that hits the case does not end.", "anchors": ["src/lightspeed/base/containers/buffer.h: ReadBuffer::peek(natural)"]}
{"id": "C83", "title": "Copying and assigning a map", "statement": "A map copied from, or assigned from, another map answers every later call exactly as the source would have answered it.", "quantifier": "all orders, all histories of source, target and copy (fewer than 2^44 entries at a time)", "why_tests_cant": "The copy is rebuilt item by item with rebalancing; only a proof covers all histories.", "anchors": ["src/lightspeed/base/containers/avltree.h AVLTree(const AVLTree&), operator=", "src/lightspeed/base/containers/map.h Map"]}
{"id": "C84", "title": "Assigning a map to itself keeps it", "statement": "m = m leaves the map unchanged.", "quantifier": "all maps", "why_tests_cant": "Aliasing of the source and the target.", "anchors": ["src/lightspeed/base/containers/avltree.h operator="]}
{"id": "C85", "title": "Union of maps and removal of keys", "statement": "a += b and a + b hold the entries of both maps where a wins for common keys; a -= b holds the entries of a whose keys are not in b.", "quantifier": "all orders and all histories of both maps", "why_tests_cant": "Ranges over all pairs of maps and later calls.", "anchors": ["src/lightspeed/base/containers/map.h operator+=, operator+, operator-="]}
{"id": "C86", "title": "Difference of maps", "statement": "a - b holds the entries of a whose keys are not in b.", "quantifier": "all pairs of maps", "why_tests_cant": "Ranges over all pairs of maps.", "anchors": ["src/lightspeed/base/containers/map.h operator-, Map(const Map&,const Map&,Exclude)"]}
{"id": "C87", "title": "The iterator returned by insert refers to the entry", "statement": "After insert(k,v) the returned iterator refers to the entry of the key k: the new one, or the old one with its old value.", "quantifier": "all histories, keys and values", "why_tests_cant": "Rotations during the insertion move the node.", "anchors": ["src/lightspeed/base/containers/map.h insert", "src/lightspeed/base/containers/avltreenode.tcc insert"]}
{"id": "C88", "title": "The iterator returned by insert can be used further", "statement": "Walking on from the iterator returned by insert gives the following entries, each once; erasing through it removes the entry.", "quantifier": "all histories, keys and values", "why_tests_cant": "The recorded path must survive every rotation.", "anchors": ["src/lightspeed/base/containers/avltreenode.tcc insert", "src/lightspeed/base/containers/avltree.h erase(Iterator&)"]}
{"id": "C89", "title": "Iterators of a map can be compared", "statement": "Of two iterators of the same map, the one whose entry goes first is less.", "quantifier": "all maps and pairs of iterators", "why_tests_cant": "Ranges over all shapes of trees.", "anchors": ["src/lightspeed/base/containers/avltreenode.tcc Iterator::lessThan"]}
{"id": "C90", "title": "Comparing maps by their keys", "statement": "compare is a total order of maps by their sets of keys: equal exactly when both have the same keys, antisymmetric and transitive.", "quantifier": "all orders and all histories of three maps", "why_tests_cant": "Order laws range over all triples.", "anchors": ["src/lightspeed/base/containers/map.h compare"]}
{"id": "C91", "title": "Maps that compare equal hold the same entries", "statement": "compare returns equal only when both maps hold the same keys with the same values.", "quantifier": "all pairs of maps", "why_tests_cant": "Ranges over all pairs of maps.", "anchors": ["src/lightspeed/base/containers/map.h compare"]}
{"id": "C92", "title": "Visiting all entries", "statement": "forEach calls the function once for every entry, in ascending or descending order (in a bottom-up or top-down order each entry once), until the function says stop, and reports whether it was stopped.", "quantifier": "all histories, functions and states", "why_tests_cant": "Ranges over all histories and functions.", "anchors": ["src/lightspeed/base/containers/avltree.h forEach"]}
{"id": "C93", "title": "The estimate of the number of nodes is safe", "statement": "aproxCount of a non-empty tree returns a number.", "quantifier": "all balanced trees", "why_tests_cant": "Ranges over all shapes of trees.", "anchors": ["src/lightspeed/base/containers/avltreenode.tcc aproxCount"]}
{"id": "C94", "title": "Size of the intrusive tree", "statement": "size() of an AvlTreeBasic is the number of its nodes after every insert, removal and clear.", "quantifier": "all histories", "why_tests_cant": "Ranges over all histories.", "anchors": ["src/lightspeed/base/containers/avltreenode.h AvlTreeBasic"]}
{"id": "C95", "title": "An unused FastLock is free", "statement": "When no thread is inside the lock, lock and tryLock obtain it at once without waiting.", "quantifier": "all schedules of any number of threads that lead to such a moment", "why_tests_cant": "Depends on every earlier race having been cleaned up.", "anchors": ["src/lightspeed/mt/fastlock.h: FastLock::lock, tryLock, unlock"]}
{"id": "C96", "title": "FastLock touches only existing slots", "statement": "As long as no thread ends, no call of the lock reads the waiting slot of a thread that has already left the function that declared it, or follows a null link.", "quantifier": "all schedules of any number of threads", "why_tests_cant": "Use after scope of a few instructions.", "anchors": ["src/lightspeed/mt/fastlock.h: FastLock::unlock, lockSlow"]}
{"id": "C97", "title": "Unlocking is safe when the next owner ends", "statement": "unlock touches only existing objects also when the thread it hands the lock to uses the lock, unlocks it and ends.", "quantifier": "all schedules with ending threads", "why_tests_cant": "Race window of a few instructions.", "anchors": ["src/lightspeed/mt/fastlock.h: FastLock::unlock (wakeUp through a plain pointer)"]}
{"id": "C98", "title": "A FastLock may be unlocked by another thread", "statement": "Mutual exclusion holds also when a thread leaves the unlocking to another thread, as the comment of unlock allows.", "quantifier": "all schedules with handed-over ownership", "why_tests_cant": "Depends on stack addresses.", "anchors": ["src/lightspeed/mt/fastlock.h: FastLock::unlock, lockSlow"]}
{"id": "C99", "title": "Recursive lock counts its locks", "statement": "When no call is running, the recursive lock is taken by a thread exactly if that thread has locked it (lock or successful tryLock) more times than it has unlocked it; and the owner's further lock and tryLock succeed without waiting.", "quantifier": "all interleavings of lock, tryLock and unlock", "why_tests_cant": "Depends on the interleaving of the threads.", "anchors": ["src/lightspeed/mt/fastlock.h: FastLockR"]}
{"id": "C100", "title": "Restored recursion is released by as many unlocks", "statement": "After lockRestoreRecursion(count, true) has returned true, count calls of unlock release the lock.", "quantifier": "all interleavings including unlockSaveRecusion and lockRestoreRecursion", "why_tests_cant": "Depends on the interleaving of the threads.", "anchors": ["src/lightspeed/mt/fastlock.h: FastLockR"]}
{"id": "C101", "title": "Recursive lock excludes when only lock, tryLock and unlock are used", "statement": "Two different threads never own the recursive lock at once as long as no thread calls unlockSaveRecusion or lockRestoreRecursion.", "quantifier": "all interleavings of lock, tryLock and unlock", "why_tests_cant": "Depends on the interleaving of the threads.", "anchors": ["src/lightspeed/mt/fastlock.h: FastLockR"]}
{"id": "C102", "title": "Level lock admits waiters in order", "statement": "Without cancelling, no call of the level lock has undefined behaviour, and threads that had to wait are let in in the order in which they began to wait.", "quantifier": "all histories of lock/tryLock/unlock by any number of threads", "why_tests_cant": "Depends on the interleaving of the threads and on the length of the history.", "anchors": ["src/lightspeed/mt/rwlock.h: LevelLock"]}
{"id": "C103", "title": "Cancelling a level lock request is safe", "statement": "Cancelling an asynchronous lock request leaves the lock in a state in which all further calls are safe.", "quantifier": "all histories including cancelAsync", "why_tests_cant": "Depends on the interleaving of the threads and on the length of the history.", "anchors": ["src/lightspeed/mt/rwlock.h: LevelLock"]}
{"id": "C104", "title": "Sync point is a queue of slots", "statement": "For every history of making, registering, removing, testing slots and notifying one or all, the sync point answers as a queue: notifyOne wakes exactly the oldest (or newest, by its order) registered slot, notifyAll exactly the registered ones, a removed slot is never notified, and no slot outside the queue is touched. (No slot is registered again after a notification, see C105.)", "quantifier": "every history of operations, any number of slots, both orders", "why_tests_cant": "the queue is an intrusive list whose corruption shows only after particular removals in the middle", "anchors": ["src/lightspeed/mt/syncPt.h", "src/lightspeed/mt/syncPt.cpp SyncPt::add/remove/notifyOne/notifyAll/popSlot"]}
{"id": "C105", "title": "A notified and reset slot can be registered again", "statement": "After a slot was notified and reset, add accepts it again and a later notification reaches it.", "quantifier": "every slot", "why_tests_cant": "needs the right history of one slot", "anchors": ["src/lightspeed/mt/syncPt.h", "src/lightspeed/mt/syncPt.cpp SyncPt::add/remove/notifyOne/notifyAll/popSlot", "SyncPt::Slot::reset"]}
{"id": "C106", "title": "remove says true only if the slot was waiting", "statement": "SyncPt::remove returns true only for a slot that was registered and not yet notified.", "quantifier": "every slot and state", "why_tests_cant": "the wrong answer needs a slot that was never registered", "anchors": ["src/lightspeed/mt/syncPt.h", "src/lightspeed/mt/syncPt.cpp SyncPt::add/remove/notifyOne/notifyAll/popSlot"]}
{"id": "C107", "title": "Cancelled semaphore request gives its permit back", "statement": "Cancelling an asynchronous semaphore request that had already been granted returns the permit to the semaphore.", "quantifier": "every state of the semaphore", "why_tests_cant": "needs a cancel after an immediate grant", "anchors": ["src/lightspeed/mt/semaphore.h Semaphore::lock/unlock/tryLock/lockAsync/cancelAsync"]}
{"id": "C108", "title": "A timed-out semaphore lock leaves the semaphore intact", "statement": "A lock call that gives up by timeout leaves nothing behind: later unlocks work and wake only threads that still wait.", "quantifier": "every state and schedule", "why_tests_cant": "needs a timeout followed by an unlock; the effect is use of a dead stack object", "anchors": ["src/lightspeed/mt/semaphore.h Semaphore::lock/unlock/tryLock/lockAsync/cancelAsync"]}
{"id": "C109", "title": "A closed gate lets nobody through", "statement": "A wait that begins when the gate is closed does not succeed unless the gate is open at some moment before it ends.", "quantifier": "all interleavings of open, close and wait", "why_tests_cant": "needs a close between the two halves of an open", "anchors": ["src/lightspeed/mt/gate.h Gate::open/close/wait"]}
{"id": "C110", "title": "Dropping the last promise resolves the future", "statement": "When the last Promise of an unresolved future is destroyed, the future is resolved with CanceledException: observers registered afterwards are called and wait() ends (as documented at Promise).", "quantifier": "all histories", "why_tests_cant": "the failure is a hang of an observer registered later", "anchors": ["src/lightspeed/base/actions/promise.tcc", "Promise::~Promise", "Future::Value::releaseResultRef", "Future::Value::cancel"]}
{"id": "C111", "title": "Withdrawing an observer keeps the others", "statement": "unregisterObserver takes out exactly the given observer, keeps the order of the remaining ones and tells whether it was there.", "quantifier": "all lists of observers", "why_tests_cant": "depends on the position in a queue of any length", "anchors": ["src/lightspeed/base/actions/promise.tcc", "Future::Value::unregisterObserver"]}
{"id": "C112", "title": "Future::wait is not used after it returned", "statement": "The stack record with which a thread waits in Future::wait is not touched by the resolving thread after wait has returned.", "quantifier": "all interleavings", "why_tests_cant": "a race of a few instructions", "anchors": ["src/lightspeed/base/actions/promise.tcc", "Future::wait"]}
{"id": "C113", "title": "B-tree refuses a key it has", "statement": "Add of a key that is in the B-tree returns false and leaves the tree with each key once.", "quantifier": "all trees and keys", "why_tests_cant": "Only a key at a particular place of a full node goes wrong.", "anchors": ["src/lightspeed/base/containers/btree.h BTree::Add"]}
{"id": "C114", "title": "B-tree removal", "statement": "Remove of a key takes out this key, keeps all others, and the size goes down by one; Remove of an unknown key changes nothing.", "quantifier": "all trees and keys", "why_tests_cant": "Depends on rotations and merges chosen by the history.", "anchors": ["src/lightspeed/base/containers/btree.h BTree::Remove"]}
{"id": "C115", "title": "B-tree iteration from a key", "statement": "BeginFrom with a key of the tree makes the iteration visit this key and all greater ones in order.", "quantifier": "all trees and keys", "why_tests_cant": "Depends on whether the key is in an inner node.", "anchors": ["src/lightspeed/base/containers/btree.h BTreeIterator::BeginFrom"]}
{"id": "C116", "title": "B-tree backward iteration", "statement": "Previous returns the key before the current one and moves there.", "quantifier": "all trees and positions", "why_tests_cant": "Depends on whether the position is in an inner node.", "anchors": ["src/lightspeed/base/containers/btree.h BTreeIterator::Previous"]}
{"id": "C117", "title": "Assigning a counted pointer to itself changes nothing", "statement": "After p = p the pointer refers to the same object as before.", "quantifier": "all states reachable by histories of pointer operations", "why_tests_cant": "the case needs aliasing through references", "anchors": ["src/lightspeed/base/memory/refCntPtr.h", "src/lightspeed/base/memory/allocPointer.h"]}
{"id": "C118", "title": "Moving a counted pointer along a chain of members", "statement": "Assigning to the only pointer to an object the value of a pointer stored in that object (p = p->next), by copy or by move, makes it refer to that value and destroys the old object.", "quantifier": "all states reachable by histories of pointer operations", "why_tests_cant": "freed memory usually still holds the old value in a test", "anchors": ["src/lightspeed/base/memory/refCntPtr.h", "src/lightspeed/base/memory/allocPointer.h"]}
{"id": "C119", "title": "Creating a new object in a counted pointer keeps shared objects alive", "statement": "create() on a pointer whose object is referred to by another pointer leaves that object alive.", "quantifier": "all states reachable by histories of pointer operations", "why_tests_cant": "freed memory usually still holds the old value in a test", "anchors": ["src/lightspeed/base/memory/refCntPtr.h RefCntPtr::create", "src/lightspeed/base/memory/allocPointer.h AllocPointer::create"]}
{"id": "C120", "title": "Weak reference: setNull returns when the locks are gone", "statement": "Once all locked pointers have been given back, a running setNull returns; no wake-up is lost.", "quantifier": "all interleavings of any number of threads", "why_tests_cant": "a lost wake-up needs one particular interleaving", "anchors": ["src/lightspeed/base/memory/weakref.h"]}
{"id": "C121", "title": "Weak reference: giving back a pointer is safe after setNull returned", "statement": "Giving back a locked pointer is safe at any time, also when the thread that called setNull has already ended.", "quantifier": "all interleavings of any number of threads", "why_tests_cant": "needs a preemption between two machine instructions and the end of a thread", "anchors": ["src/lightspeed/base/memory/weakref.h"]}
{"id": "C122", "title": "Redirecting a shared pointer redirects all owners and nobody else", "statement": "After redirect on a pointer to an object, every existing pointer that referred to that object refers to the new target and every other pointer is unchanged.", "quantifier": "all operation histories", "why_tests_cant": "The set of owners depends on the whole history of copies and assignments.", "anchors": ["src/lightspeed/base/memory/sharedResource.h", "src/lightspeed/base/memory/sharedPtr.h"]}
{"id": "C123", "title": "Assignment puts both shared pointers in one sharing group", "statement": "After p = q, p and q share: redirecting one of them redirects the other as well, also when both were null before.", "quantifier": "all operation histories", "why_tests_cant": "It fails only when both pointers are null and each is already linked with other null pointers.", "anchors": ["src/lightspeed/base/memory/sharedResource.h", "src/lightspeed/base/memory/sharedPtr.h"]}
{"id": "C124", "title": "Clearing a shared pointer leaves the other owners valid", "statement": "clear() on a shared pointer only ends the reference of that pointer; an object other pointers refer to stays alive.", "quantifier": "all operation histories with a shared object", "why_tests_cant": "The defect shows only when another owner is used later.", "anchors": ["src/lightspeed/base/memory/sharedResource.h", "src/lightspeed/base/memory/sharedPtr.h", "src/lightspeed/base/memory/allocPointer.h"]}
{"id": "C125", "title": "Swapping shared pointers keeps ownership", "statement": "After swap(p, q) each object is destroyed only when no pointer refers to it any more.", "quantifier": "all operation histories", "why_tests_cant": "The defect shows only when one of the swapped pointers is destroyed while third owners exist.", "anchors": ["src/lightspeed/base/memory/sharedResource.h", "src/lightspeed/base/memory/sharedPtr.h", "src/lightspeed/base/memory/allocPointer.h"]}
{"id": "C126", "title": "Assigning a shared pointer a member of its own object is safe", "statement": "p = p->next is well defined when p is the only pointer to its object.", "quantifier": "all operation histories", "why_tests_cant": "Use after destruction is silent in tests.", "anchors": ["src/lightspeed/base/memory/sharedResource.h", "src/lightspeed/base/memory/sharedPtr.h"]}
{"id": "C127", "title": "A block may be given back to the owner its allocation reported", "statement": "Deallocating a block through the owner that alloc reported keeps the allocator consistent, for every size.", "quantifier": "all histories with deallocations through the owner", "why_tests_cant": "It fails only for sizes that are not a multiple of the rounding, and only from the fourth block of a cluster on.", "anchors": ["src/lightspeed/base/memory/clusterAlloc.h", "src/lightspeed/base/memory/clusterAlloc.cpp"]}
{"id": "C128", "title": "Allocating zero bytes is well defined", "statement": "alloc(0) on a cluster allocator returns a block or throws.", "quantifier": "all states", "why_tests_cant": "Division by zero is undefined, and on many machines it ends the program.", "anchors": ["src/lightspeed/base/memory/clusterAlloc.h", "src/lightspeed/base/memory/clusterAlloc.cpp"]}
{"id": "C129", "title": "JSON parser reads every RFC 8259 text", "statement": "For every JSON value and every RFC 8259 text of it (any blanks, short or \\u escapes of one unit other than U+07FF and U+FFFF, members in any order, any nesting), whatever follows the text, the parser consumes exactly the text and returns the value: members are found by name, the first of equal names counts, and objects enumerate their members sorted. A number must be followed by a delimiter unless it has at least two characters.", "quantifier": "all values, all texts of them, all following inputs", "why_tests_cant": "texts are unbounded in nesting and escapes combine freely", "anchors": ["src/lightspeed/utils/json/jsonparser.tcc: Parser::parse, parseRawString, parseObject, parseArray, parseValue"]}
{"id": "C130", "title": "Serialised JSON is an RFC 8259 text of the value", "statement": "In the default mode the output for any value without floating point numbers (strings of arbitrary bytes, any nesting, integers above -2^63) is an RFC 8259 text of exactly that value.", "quantifier": "all such values", "why_tests_cant": "unbounded nesting and all byte strings", "anchors": ["src/lightspeed/utils/json/jsonserializer.tcc: Serializer::serialize, serializeString, serializeStringEscUTF, writeChar"]}
{"id": "C131", "title": "Serialised JSON with escaped UTF-8 is a text of the value", "statement": "With escaping of UTF-8 on, the output for any value whose strings are UTF-8 is a pure JSON text of that value, so that parsing gives the value back.", "quantifier": "all values with strings of Unicode code points", "why_tests_cant": "all code points; the tests use a few", "anchors": ["src/lightspeed/utils/json/jsonserializer.tcc: Serializer::serialize, serializeString, serializeStringEscUTF, writeChar", "src/lightspeed/utils/json/jsonparser.tcc: Parser::parse, parseRawString, parseObject, parseArray, parseValue"]}
{"id": "C132", "title": "JSON escapes stand for their code points", "statement": "Every \\u escape, and every pair of escaped surrogates, in a string is read as the UTF-8 form of the code point it stands for.", "quantifier": "all escaped strings", "why_tests_cant": "2^20 pairs and combinations with context", "anchors": ["src/lightspeed/utils/json/jsonparser.tcc: Parser::parse, parseRawString, parseObject, parseArray, parseValue"]}
{"id": "C133", "title": "JSON integers are read exactly or rejected", "statement": "Every integer text is either read as exactly that integer, as a floating point number, or rejected; it never becomes another integer.", "quantifier": "all integer texts", "why_tests_cant": "integer texts are unbounded", "anchors": ["src/lightspeed/utils/json/jsonparser.tcc: Parser::parse, parseRawString, parseObject, parseArray, parseValue"]}
{"id": "C134", "title": "JSON parser ends safely on every input", "statement": "On every byte sequence the parser ends with a value or an exception, having consumed a non-empty part of the input if it returns a value.", "quantifier": "all byte sequences", "why_tests_cant": "malformed inputs are unbounded", "anchors": ["src/lightspeed/utils/json/jsonparser.tcc: Parser::parse, parseRawString, parseObject, parseArray, parseValue"]}
{"id": "C135", "title": "A JSON object is a finite map", "statement": "Every history of add, set, erase, clear, get, length and enumeration on a JSON object answers like a finite map whose names are enumerated in order; add never replaces a member, set returns the previous one, a null pointer erases.", "quantifier": "all histories of operations", "why_tests_cant": "histories are unbounded", "anchors": ["src/lightspeed/utils/json/json.cpp: Object", "src/lightspeed/base/containers/avltreenode.h: AvlTreeBasic"]}
{"id": "C136", "title": "Values added to an object without a name are kept", "statement": "Adding a value without a name to a JSON object stores it under a name of its own.", "quantifier": "all objects and values", "why_tests_cant": "the loss is silent and depends on earlier additions", "anchors": ["src/lightspeed/utils/json/json.cpp: Object::add(Value)"]}
{"id": "C137", "title": "JSON equality is equality of values", "statement": "Two JSON values compare equal exactly if they are the same JSON value; equality is reflexive and symmetric.", "quantifier": "all pairs of values of any nesting", "why_tests_cant": "pairs of unbounded trees", "anchors": ["src/lightspeed/utils/json/json.cpp: operator== of Object, Array, TextFieldA, IntField, FloatField, Null, Bool, EmptyString, ZeroNumber"]}
{"id": "C138", "title": "A clone equals its original", "statement": "clone of a JSON value gives the same JSON value, which compares equal to the original.", "quantifier": "all values of any nesting", "why_tests_cant": "unbounded trees", "anchors": ["src/lightspeed/utils/json/json.cpp: clone, operator=="]}
{"id": "C139", "title": "A JSON path finds the value it leads to", "statement": "A path of names and indexes applied to a value gives the value the steps lead to; null or an exception if there is none.", "quantifier": "all paths and values", "why_tests_cant": "unbounded paths and trees", "anchors": ["src/lightspeed/utils/json/json.cpp: Path::operator(), Value::operator[], ConstValue::operator[]"]}
{"id": "C140", "title": "Comparing JSON paths is a total order", "statement": "Comparison of paths is antisymmetric, transitive and total, and two paths are equal exactly if they have the same steps.", "quantifier": "all triples of paths of any length", "why_tests_cant": "triples of unbounded paths", "anchors": ["src/lightspeed/utils/json/json.cpp: Path::compare"]}
{"id": "C141", "title": "Copying a JSON path stays inside its memory", "statement": "Copying a path writes only inside the one block it allocates, its parts do not overlap, and the copy has the steps of the original.", "quantifier": "all paths, all addresses", "why_tests_cant": "lengths of paths and names are unbounded", "anchors": ["src/lightspeed/utils/json/json.cpp: Path::copy, Path::copyRecurse"]}
{"id": "C142", "title": "Deleting a copied JSON path releases its memory", "statement": "Deleting a path made by copy ends and gives its block back to the allocator with the size it was allocated with.", "quantifier": "all copied paths", "why_tests_cant": "non-termination cannot be observed by a test that ends", "anchors": ["src/lightspeed/utils/json/json.cpp: Path::operator delete"]}
{"id": "C143", "title": "MD5 is the algorithm of RFC 1321", "statement": "A hashing iterator fed with items and blocks in any order ends with the MD5 digest of the bytes it handed on, which are exactly the items the next iterator took, for pieces of less than 2^31 - 64 bytes.", "quantifier": "all sequences of writes, all item sizes, all numbers of items taken, all initial memory contents", "why_tests_cant": "Blocks, padding and the 64-bit length interact for all lengths; a test checks a few vectors.", "anchors": ["src/lightspeed/utils/impl/md5.cpp", "src/lightspeed/utils/md5iter.h: HashMD5"]}
{"id": "C144", "title": "SHA-1 is the algorithm of FIPS 180", "statement": "One SHA1 object used for any number of messages yields for each the SHA-1 digest of its bytes, whether unsigned long has 32 or 64 bits.", "quantifier": "all sequences of messages, each in any pieces, strings or streams, and every width from 32 bits", "why_tests_cant": "The class keeps words of unspecified width and a buffer across calls.", "anchors": ["src/lightspeed/utils/impl/sha1.cpp: update, final, transform"]}
{"id": "C145", "title": "The hexadecimal MD5 digest is the digest", "statement": "After finish, hexdigest gives the 32 lower case hexadecimal digits of the digest, on every call.", "quantifier": "all messages", "why_tests_cant": "All digests.", "anchors": ["src/lightspeed/utils/md5iter.h: hexdigest"]}
{"id": "C146", "title": "MD5 of large blocks", "statement": "A block of any length handed to the hashing iterator is hashed completely.", "quantifier": "all block lengths", "why_tests_cant": "Blocks of several gigabytes are not tested.", "anchors": ["src/lightspeed/utils/md5iter.h: blockWrite", "src/lightspeed/utils/impl/md5.cpp: md5_append"]}
{"id": "C147", "title": "Flushing the MD5 iterator twice", "statement": "Flushing or finishing the hashing iterator again without further data leaves the digest as it is.", "quantifier": "all messages", "why_tests_cant": "Needs a history with repeated flushes.", "anchors": ["src/lightspeed/utils/md5iter.h: flush, finish"]}
{"id": "C148", "title": "Message patterns show their arguments", "statement": "A formatter used for any number of messages shows each pattern as documented: ordinary text is copied, %% is a percent sign, a line feed becomes the line separator, and %N shows the N-th argument of this message, whatever mix of texts by pointer, copied texts, characters and numbers was given.", "quantifier": "all sequences of messages, all well-formed patterns, all argument lists of at most 30, all number bases 2 to 62", "why_tests_cant": "Arguments share one buffer whose pieces are found again by counting; only some mixes of argument kinds are tested.", "anchors": ["src/lightspeed/base/text/textFormat.h: TextFormat", "src/lightspeed/base/text/textFormat.tcc: output, parseFormatInfo"]}
{"id": "C149", "title": "Documented field forms", "statement": "The six documented field forms {S}, {-S}, {+S}, {cS}, {-cS}, {+cS} align, fill and place the sign as the documentation says.", "quantifier": "all texts, widths, fill characters and argument lists", "why_tests_cant": "Width, sign and fill interact for all lengths.", "anchors": ["src/lightspeed/base/text/textFormat.h: TextFormat", "src/lightspeed/base/text/textFormat.tcc: output, parseFormatInfo"]}
{"id": "C150", "title": "Field width", "statement": "A field takes exactly its width, or as many characters as the text and a required sign need when that is more.", "quantifier": "all fields and texts", "why_tests_cant": "Off-by-one errors show only for some lengths and signs.", "anchors": ["src/lightspeed/base/text/textFormat.h: TextFormat", "src/lightspeed/base/text/textFormat.tcc: output, parseFormatInfo"]}
{"id": "C151", "title": "No pattern breaks the formatter", "statement": "Any pattern, well formed or not, is processed to its end without an exception and without reading outside the pattern or the arguments.", "quantifier": "all patterns and argument lists of at most 30", "why_tests_cant": "Malformed patterns are unlimited.", "anchors": ["src/lightspeed/base/text/textFormat.h: TextFormat", "src/lightspeed/base/text/textFormat.tcc: output, parseFormatInfo"]}
{"id": "C152", "title": "Output without a pattern", "statement": "With an empty pattern the arguments are shown one after the other.", "quantifier": "all argument lists", "why_tests_cant": "Depends on the kinds of arguments.", "anchors": ["src/lightspeed/base/text/textFormat.h: TextFormat", "src/lightspeed/base/text/textFormat.tcc: output, parseFormatInfo"]}
{"id": "C153", "title": "Adjacent placeholders", "statement": "A pattern in which two placeholders %i and %j follow each other directly shows both arguments.", "quantifier": "all indexes and arguments", "why_tests_cant": "A particular combination of pattern elements.", "anchors": ["src/lightspeed/base/text/textFormat.h: TextFormat", "src/lightspeed/base/text/textFormat.tcc: output, parseFormatInfo"]}
{"id": "C154", "title": "Number of arguments", "statement": "A message may have any number of arguments.", "quantifier": "all argument lists", "why_tests_cant": "Long argument lists are not tested.", "anchors": ["src/lightspeed/base/text/textFormat.h: TextFormat", "src/lightspeed/base/text/textFormat.tcc: output, parseFormatInfo", "src/lightspeed/base/memory/staticAlloc.h"]}
{"id": "C155", "title": "Conditional parameter", "statement": "The documented conditional parameter %{/reg-exp/text}N shows the text only if the argument matches.", "quantifier": "all texts and arguments", "why_tests_cant": "Needs all arguments.", "anchors": ["src/lightspeed/base/text/textFormat.h: TextFormat", "src/lightspeed/base/text/textFormat.tcc: output, parseFormatInfo"]}
{"id": "C156", "title": "Numbers in messages", "statement": "Every integer argument is shown by its numeral in the chosen base.", "quantifier": "all integers of the supported types, bases 2 to 62", "why_tests_cant": "The range of 64 bit integers cannot be enumerated.", "anchors": ["src/lightspeed/base/text/textFormat.cpp: numberToString", "src/lightspeed/base/text/textFormat.tcc: operator <<"]}
{"id": "C157", "title": "No input breaks the binary JSON reader", "statement": "Reading any bytes as binary JSON gives a value or an exception, never undefined behaviour.", "quantifier": "all byte sequences", "why_tests_cant": "Malformed inputs are unlimited.", "anchors": ["src/lightspeed/utils/json/binjson.cpp: JsonToBinary, BinaryToJson", "src/lightspeed/utils/json/binjson.h"]}
{"id": "C158", "title": "Binary JSON reading ends", "statement": "Reading any bytes as binary JSON stops, and a value that was read used up at least one byte.", "quantifier": "all byte sequences, string tables and reader stacks", "why_tests_cant": "Termination for every input is not testable.", "anchors": ["src/lightspeed/utils/json/binjson.cpp: JsonToBinary, BinaryToJson", "src/lightspeed/utils/json/binjson.h"]}
{"id": "C159", "title": "A growing array behaves as a list", "statement": "After any history of adding, appending, inserting, erasing, truncating, resizing, reserving, freeing extra room, reading and writing, the array answers every operation as a list would, for unlimited and for fixed-capacity storage (where operations passing the capacity fail and change nothing), and its destructor destroys every item exactly once.", "quantifier": "all item types without throwing constructors, all capacities and all operation histories", "why_tests_cant": "Histories and reallocation points are unlimited.", "anchors": ["src/lightspeed/base/containers/autoArray.h: AutoArrayT", "src/lightspeed/base/containers/autoArray.tcc", "src/lightspeed/base/memory/objmanip.h: ObjManip"]}
{"id": "C160", "title": "Exceptions while changing the end of an array", "statement": "When one construction of an item throws during operations that change only the end of an array, the operation reports the exception, the array holds its old items and possibly some of the new ones, and it keeps working.", "quantifier": "all histories of operations at the end and all moments of the exception", "why_tests_cant": "The moment of the exception cannot be enumerated.", "anchors": ["src/lightspeed/base/containers/autoArray.h: AutoArrayT", "src/lightspeed/base/containers/autoArray.tcc", "src/lightspeed/base/memory/objmanip.h: ObjManip"]}
{"id": "C161", "title": "Exceptions while changing the middle of an array", "statement": "When the construction of an item throws during insertion or erasing in the middle, the exception is reported and the array stays usable: every item it counts exists.", "quantifier": "all arrays, positions and counts", "why_tests_cant": "The failure needs a throw at one exact moment.", "anchors": ["src/lightspeed/base/containers/autoArray.h: AutoArrayT", "src/lightspeed/base/containers/autoArray.tcc", "src/lightspeed/base/memory/objmanip.h: ObjManip"]}
{"id": "C162", "title": "Items of an array can be passed back to it", "statement": "Adding or inserting an item that is itself stored in the array, or appending the array to itself, uses the value the item had before the call.", "quantifier": "all arrays and positions", "why_tests_cant": "Depends on whether the storage happens to be replaced.", "anchors": ["src/lightspeed/base/containers/autoArray.h: AutoArrayT", "src/lightspeed/base/containers/autoArray.tcc", "src/lightspeed/base/memory/objmanip.h: ObjManip"]}
{"id": "C163", "title": "Erasing to the end with a large count", "statement": "Erasing with a count that passes the end erases everything from the position on.", "quantifier": "all arrays, positions and counts", "why_tests_cant": "Only counts near the largest integer fail.", "anchors": ["src/lightspeed/base/containers/autoArray.h: AutoArrayT", "src/lightspeed/base/containers/autoArray.tcc", "src/lightspeed/base/memory/objmanip.h: ObjManip"]}
{"id": "C164", "title": "Inserting nothing does nothing", "statement": "Inserting zero copies of an item, or an empty array, leaves the array as it was.", "quantifier": "all arrays and positions", "why_tests_cant": "An edge case for every position.", "anchors": ["src/lightspeed/base/containers/autoArray.h: AutoArrayT", "src/lightspeed/base/containers/autoArray.tcc", "src/lightspeed/base/memory/objmanip.h: ObjManip"]}
{"id": "C165", "title": "Assigning an array to itself", "statement": "Assigning an array to itself leaves it as it was.", "quantifier": "all arrays", "why_tests_cant": "A universal statement.", "anchors": ["src/lightspeed/base/containers/autoArray.h: AutoArrayT", "src/lightspeed/base/containers/autoArray.tcc", "src/lightspeed/base/memory/objmanip.h: ObjManip"]}
{"id": "C166", "title": "Copies of arrays", "statement": "A copied array and the target of an assignment show the items of the source.", "quantifier": "all arrays and all earlier histories of the target", "why_tests_cant": "Histories are unlimited.", "anchors": ["src/lightspeed/base/containers/autoArray.h: AutoArrayT", "src/lightspeed/base/containers/autoArray.tcc", "src/lightspeed/base/memory/objmanip.h: ObjManip"]}
{"id": "C167", "title": "Adding items costs constant time on average", "statement": "Adding n items one by one to an empty array moves stored items at most 4 n times in all.", "quantifier": "all numbers of items", "why_tests_cant": "A bound for every n.", "anchors": ["src/lightspeed/base/containers/autoArray.h: AutoArrayT", "src/lightspeed/base/containers/autoArray.tcc", "src/lightspeed/base/memory/objmanip.h: ObjManip"]}
{"id": "C168", "title": "Reserved room is enough", "statement": "After room for n items was reserved, adding items up to n in all moves no item and allocates nothing, so references to items stay valid.", "quantifier": "all earlier histories and all n", "why_tests_cant": "Histories are unlimited.", "anchors": ["src/lightspeed/base/containers/autoArray.h: AutoArrayT", "src/lightspeed/base/containers/autoArray.tcc", "src/lightspeed/base/memory/objmanip.h: ObjManip"]}
{"id": "C169", "title": "Array expressions show the combined items", "statement": "An expression built from plain arrays by concatenation, taking parts, reversing and repeating has the length and, at each position, the item of the combined list.", "quantifier": "all item types, all arrays and all expressions built from them", "why_tests_cant": "Expressions nest without limit.", "anchors": ["src/lightspeed/base/containers/arrayt.h: ArrayT", "src/lightspeed/base/containers/arrayExpr.h", "src/lightspeed/base/containers/flatArray.h: FlatArray"]}
{"id": "C170", "title": "Visiting each item of an expression", "statement": "forEach hands the items to the visitor in order until it asks to stop, for expressions in which a concatenation is entered at its beginning and nothing empty is repeated.", "quantifier": "all item types, all arrays and all expressions built from them, all visitors", "why_tests_cant": "Expressions nest without limit.", "anchors": ["src/lightspeed/base/containers/arrayt.h: ArrayT", "src/lightspeed/base/containers/arrayExpr.h", "src/lightspeed/base/containers/flatArray.h: FlatArray"]}
{"id": "C171", "title": "Finding the first item", "statement": "find and findOneOf answer the first position whose item is wanted, and none exactly if there is none, for expressions without parts of composed arrays.", "quantifier": "all item types, all arrays and all expressions built from them", "why_tests_cant": "Expressions nest without limit.", "anchors": ["src/lightspeed/base/containers/arrayt.h: ArrayT", "src/lightspeed/base/containers/arrayExpr.h", "src/lightspeed/base/containers/flatArray.h: FlatArray"]}
{"id": "C172", "title": "Finding in a plain array from a position, and finding an array", "statement": "Searching a plain array from a position answers the first match from there on, and searching for an array answers the first position where it stands.", "quantifier": "all arrays, positions and patterns", "why_tests_cant": "All overlaps of patterns cannot be listed.", "anchors": ["src/lightspeed/base/containers/arrayt.h: ArrayT", "src/lightspeed/base/containers/arrayExpr.h", "src/lightspeed/base/containers/flatArray.h: FlatArray"]}
{"id": "C173", "title": "Finding in every expression", "statement": "find and find-from-a-position answer the first match in every expression, also in parts of composed ones.", "quantifier": "all item types, all arrays and all expressions built from them", "why_tests_cant": "Expressions nest without limit.", "anchors": ["src/lightspeed/base/containers/arrayt.h: ArrayT", "src/lightspeed/base/containers/arrayExpr.h", "src/lightspeed/base/containers/flatArray.h: FlatArray"]}
{"id": "C174", "title": "Finding the last item", "statement": "findLast answers the last position whose item is wanted, and none exactly if there is none, for expressions without parts of composed arrays.", "quantifier": "all item types, all arrays and all expressions built from them", "why_tests_cant": "Expressions nest without limit.", "anchors": ["src/lightspeed/base/containers/arrayt.h: ArrayT", "src/lightspeed/base/containers/arrayExpr.h", "src/lightspeed/base/containers/flatArray.h: FlatArray"]}
{"id": "C175", "title": "Finding the last occurrence of an array", "statement": "findLast with an array answers the last position where it stands.", "quantifier": "all arrays and patterns", "why_tests_cant": "All overlaps cannot be listed.", "anchors": ["src/lightspeed/base/containers/arrayt.h: ArrayT", "src/lightspeed/base/containers/arrayExpr.h", "src/lightspeed/base/containers/flatArray.h: FlatArray"]}
{"id": "C176", "title": "Comparing array expressions", "statement": "compare orders expressions lexicographically and answers equal exactly for equal lists of items, however the two are built.", "quantifier": "all item types, all arrays and all expressions built from them, all orders of items", "why_tests_cant": "Expressions nest without limit.", "anchors": ["src/lightspeed/base/containers/arrayt.h: ArrayT", "src/lightspeed/base/containers/arrayExpr.h", "src/lightspeed/base/containers/flatArray.h: FlatArray"]}
{"id": "C177", "title": "Splitting a plain array", "statement": "The parts given by split contain no separator and joined with it give the array.", "quantifier": "all arrays and separators", "why_tests_cant": "A statement about every array.", "anchors": ["src/lightspeed/base/containers/arrayt.h: ArrayT", "src/lightspeed/base/containers/arrayExpr.h", "src/lightspeed/base/containers/flatArray.h: FlatArray"]}
{"id": "C178", "title": "Splitting an expression", "statement": "The parts given by split of a composed expression contain no separator and joined with it give the expression.", "quantifier": "all item types, all arrays and all expressions built from them", "why_tests_cant": "Expressions nest without limit.", "anchors": ["src/lightspeed/base/containers/arrayt.h: ArrayT", "src/lightspeed/base/containers/arrayExpr.h", "src/lightspeed/base/containers/flatArray.h: FlatArray"]}
{"id": "C179", "title": "Trimming", "statement": "trim removes exactly the longest run of unwanted items from the chosen sides.", "quantifier": "all item types, all arrays and all expressions built from them, all sets of unwanted items", "why_tests_cant": "Expressions nest without limit.", "anchors": ["src/lightspeed/base/containers/arrayt.h: ArrayT", "src/lightspeed/base/containers/arrayExpr.h", "src/lightspeed/base/containers/flatArray.h: FlatArray"]}
{"id": "C180", "title": "Parts of arrays", "statement": "mid, head, tail, offset, roffset and crop give the named items, cut at the ends of the array, as long as position and count do not pass the integer range.", "quantifier": "all item types, all arrays and all expressions built from them, all positions and counts", "why_tests_cant": "Expressions nest without limit.", "anchors": ["src/lightspeed/base/containers/arrayt.h: ArrayT", "src/lightspeed/base/containers/arrayExpr.h", "src/lightspeed/base/containers/flatArray.h: FlatArray"]}
{"id": "C181", "title": "Parts with large counts", "statement": "mid and crop with counts up to the largest integer give the items that exist.", "quantifier": "all arrays, positions and counts", "why_tests_cant": "Only counts near the largest integer fail.", "anchors": ["src/lightspeed/base/containers/arrayt.h: ArrayT", "src/lightspeed/base/containers/arrayExpr.h", "src/lightspeed/base/containers/flatArray.h: FlatArray"]}
{"id": "C182", "title": "Iterating over an expression", "statement": "The forward iterator gives all items in order, the backward iterator gives them reversed.", "quantifier": "all item types, all arrays and all expressions built from them", "why_tests_cant": "Expressions nest without limit.", "anchors": ["src/lightspeed/base/containers/arrayt.h: ArrayT", "src/lightspeed/base/containers/arrayExpr.h", "src/lightspeed/base/containers/flatArray.h: FlatArray"]}
{"id": "C183", "title": "Moving an iterator", "statement": "seek moves an iterator by the given number of items, at most to the end of the array, and answers how far it moved.", "quantifier": "all arrays, positions, offsets and both directions", "why_tests_cant": "Wrong only for some directions and offsets.", "anchors": ["src/lightspeed/base/containers/arrayt.h: ArrayT", "src/lightspeed/base/containers/arrayExpr.h", "src/lightspeed/base/containers/flatArray.h: FlatArray"]}
{"id": "C184", "title": "Visiting a range of items", "statement": "forEach with a start and a count visits the items of the range that exist.", "quantifier": "all arrays, starts and counts", "why_tests_cant": "Needs every pair of start and count.", "anchors": ["src/lightspeed/base/containers/arrayt.h: ArrayT", "src/lightspeed/base/containers/arrayExpr.h", "src/lightspeed/base/containers/flatArray.h: FlatArray"]}
{"id": "C185", "title": "Visiting parts of composed expressions", "statement": "forEach of every expression hands all its items in order to the visitor.", "quantifier": "all item types, all arrays and all expressions built from them", "why_tests_cant": "Expressions nest without limit.", "anchors": ["src/lightspeed/base/containers/arrayt.h: ArrayT", "src/lightspeed/base/containers/arrayExpr.h", "src/lightspeed/base/containers/flatArray.h: FlatArray"]}
{"id": "C186", "title": "Lock-free list is a stack", "statement": "When threads push to and pop from lock-free lists in any interleaving, and fewer pops than the counter in the top can tell apart finish while one pop runs, the finished calls in the order of their effect are a legal history of stacks: each item is taken once, by the pop that finds it on top.", "quantifier": "all schedules of pushes and pops, all numbers of threads, lists and items", "why_tests_cant": "The failures of such lists need rare interleavings.", "anchors": ["src/lightspeed/mt/slist.h: SList"]}
{"id": "C187", "title": "Lock-free list with any number of pops", "statement": "With few threads, pops and pushes of the lock-free list never hand out an item twice, however many of them run beside a slow pop.", "quantifier": "all schedules", "why_tests_cant": "The item must be put back just before the counter wraps around.", "anchors": ["src/lightspeed/mt/slist.h: SList"]}
{"id": "C188", "title": "Taking the whole list beside a pop", "statement": "Moving all items to another list while another thread pops hands out no item twice.", "quantifier": "all schedules", "why_tests_cant": "Needs a rare interleaving.", "anchors": ["src/lightspeed/mt/slist.h: SList"]}
{"id": "C189", "title": "Swapping lists", "statement": "swap and swapWhenTopIs exchange two lists and lose no item; swapWhenTopIs with another top changes nothing.", "quantifier": "all schedules and states", "why_tests_cant": "Needs a push between two steps of the swap.", "anchors": ["src/lightspeed/mt/slist.h: SList"]}
{"id": "C190", "title": "Spin lock is exclusive", "statement": "With lock, tryLock, unlock and give called by any threads in any order at most one thread owns the spin lock, and a thread that spins gets it with its next step once it is free.", "quantifier": "all schedules", "why_tests_cant": "Quantifies over all interleavings.", "anchors": ["src/lightspeed/mt/spinlock.h: SpinLock"]}
{"id": "C191", "title": "Stealing a spin lock", "statement": "At most one thread succeeds in stealing the lock of a thread that ended.", "quantifier": "all schedules", "why_tests_cant": "Needs two threads that steal at the same time.", "anchors": ["src/lightspeed/mt/spinlock.h: SpinLock"]}
{"id": "C192", "title": "Recursive spin lock", "statement": "The recursive spin lock is owned by at most one thread, for as many unlocks as it locked it.", "quantifier": "all schedules", "why_tests_cant": "Quantifies over all interleavings and nestings.", "anchors": ["src/lightspeed/mt/spinlock.h: SpinLockRecursive"]}
{"id": "C193", "title": "Mutex is exclusive", "statement": "At most one thread holds the mutex, for as many unlocks as it locked it, when threads lock, lock with a time limit and unlock in any order; also with tryLock once the mutex was locked and unlocked before.", "quantifier": "all schedules, all numbers of threads", "why_tests_cant": "Quantifies over all interleavings.", "anchors": ["src/lightspeed/mt/mutex.cpp: Mutex::lock, Mutex::tryLock, Mutex::unlock", "src/lightspeed/mt/mutex.h: Mutex"]}
{"id": "C194", "title": "Mutex forgets no waiting thread", "statement": "A thread that waits for the mutex without having been signaled always has another thread that holds the mutex or that is inside of a call and can go on.", "quantifier": "all schedules, all numbers of threads", "why_tests_cant": "A lost wake-up needs a rare interleaving.", "anchors": ["src/lightspeed/mt/mutex.cpp: Mutex::lock, Mutex::tryLock, Mutex::unlock", "src/lightspeed/mt/mutex.h: Mutex"]}
{"id": "C195", "title": "A timed out lock leaves nothing behind", "statement": "When lock with a time limit gives up, its thread does not own the mutex, is not in the queue and nobody is about to hand the mutex over to it; when it was handed over in the last moment, lock reports success.", "quantifier": "all schedules", "why_tests_cant": "The hand-over and the time limit must meet.", "anchors": ["src/lightspeed/mt/mutex.cpp: Mutex::lock, Mutex::tryLock, Mutex::unlock", "src/lightspeed/mt/mutex.h: Mutex"]}
{"id": "C196", "title": "tryLock counts as lock", "statement": "A thread that got the mutex with tryLock holds it for as many unlocks as it locked it, and the holder can lock it again with tryLock.", "quantifier": "all schedules", "why_tests_cant": "Only a mutex never locked before behaves wrongly.", "anchors": ["src/lightspeed/mt/mutex.cpp: Mutex::lock, Mutex::tryLock, Mutex::unlock", "src/lightspeed/mt/mutex.h: Mutex"]}
{"id": "C197", "title": "Reading through a converting filter", "statement": "Reading a stream through a converting filter gives the converted items in order: hasItems, peek and getNext, in any sequence, answer like a reader of the list of converted items.", "quantifier": "all streams, conversions and sequences of calls", "why_tests_cant": "Peeking and taking may come in any order.", "anchors": ["src/lightspeed/base/iter/iteratorFilter.h: FilterRead, FilterWrite, TypeConversionFilter, NullFilter", "src/lightspeed/base/iter/iteratorFilter.tcc"]}
{"id": "C198", "title": "Writing through a converting filter", "statement": "Writing items, one by one or as an array of constant items, through a converting filter appends the converted items to the target in order, or throws when the target has no room for all.", "quantifier": "all items, targets and conversions", "why_tests_cant": "Ranges over all lengths and rooms.", "anchors": ["src/lightspeed/base/iter/iteratorFilter.h: FilterRead, FilterWrite, TypeConversionFilter, NullFilter", "src/lightspeed/base/iter/iteratorFilter.tcc"]}
{"id": "C199", "title": "Writing an array through a filter", "statement": "blockWrite of an array of changeable items through a filter with writeAll set writes all items and returns their count.", "quantifier": "all arrays", "why_tests_cant": "The overload is chosen by the type of the array.", "anchors": ["src/lightspeed/base/iter/iteratorFilter.h: FilterRead, FilterWrite, TypeConversionFilter, NullFilter", "src/lightspeed/base/iter/iteratorFilter.tcc"]}
{"id": "C200", "title": "Block reading through a filter", "statement": "blockRead through a filter fills the array with the next items (the peeked one first): all of it when readAll is set, otherwise as many items as there are, and returns their count.", "quantifier": "all streams and arrays, after peek or not", "why_tests_cant": "Depends on the rest of the stream and earlier peeks.", "anchors": ["src/lightspeed/base/iter/iteratorFilter.h: FilterRead, FilterWrite, TypeConversionFilter, NullFilter", "src/lightspeed/base/iter/iteratorFilter.tcc"]}
{"id": "C201", "title": "Sorting filter", "statement": "A sorting filter holds what it was fed and has not given out, and gives out a largest held item each time, also when its memory is limited; reading or writing a stream through it gives all items once, the largest first.", "quantifier": "all orders, streams and histories of input and output", "why_tests_cant": "All orders of input and output.", "anchors": ["src/lightspeed/base/iter/sortFilter.h: SortFilter", "src/lightspeed/base/iter/sortFilter.tcc"]}
{"id": "C202", "title": "Copy of a sorting filter", "statement": "A copy of a sorting filter gives out the same items as the original would.", "quantifier": "all histories", "why_tests_cant": "Only a copy taken while it holds items shows it.", "anchors": ["src/lightspeed/base/iter/sortFilter.h: SortFilter", "src/lightspeed/base/iter/sortFilter.tcc"]}
{"id": "C203", "title": "Concatenated streams", "statement": "A concatenating merge iterator reads the left stream followed by the right stream.", "quantifier": "all streams and sequences of calls", "why_tests_cant": "Calls may come in any order.", "anchors": ["src/lightspeed/base/iter/merge.h: MergeIterator, MergeSortFn, MergeConcatFn"]}
{"id": "C204", "title": "Merged sorted streams", "statement": "A merge iterator with the sorting functor over two sorted streams reads the sorted stream of the items of both.", "quantifier": "all pairs of sorted streams", "why_tests_cant": "Depends on which stream ends first.", "anchors": ["src/lightspeed/base/iter/merge.h: MergeIterator, MergeSortFn, MergeConcatFn"]}
{"id": "C205", "title": "Remaining count of a merge iterator", "statement": "getRemain of a concatenating merge iterator is the count of items that are still to be read.", "quantifier": "all streams", "why_tests_cant": "Only wrong between two reads.", "anchors": ["src/lightspeed/base/iter/merge.h: MergeIterator, MergeSortFn, MergeConcatFn"]}
{"id": "C206", "title": "Limiters", "statement": "A limiter of n items over a stream reads its first n items and knows how many are left; over a target it takes at most n items, says whether it takes one more, and copies as many items as limit, target and source allow.", "quantifier": "all streams, targets, counts and sequences of calls", "why_tests_cant": "Ranges over all counts.", "anchors": ["src/lightspeed/base/iter/limiter.h: IteratorLimiterBase"]}
{"id": "C207", "title": "Offset of a limiter and its acceptance", "statement": "A limiter constructed with an offset starts reading after that many items, and accepts an item only if it can be written.", "quantifier": "all streams and offsets", "why_tests_cant": "Copies of iterators hide it.", "anchors": ["src/lightspeed/base/iter/limiter.h: IteratorLimiterBase"]}
{"id": "C208", "title": "Default block operations", "statement": "blockRead reads the next items up to the size of the array (throwing when all were demanded and there are less); blockWrite and copy move the first items in order, as many as room and limit allow, and return the count.", "quantifier": "all streams, arrays, targets and limits", "why_tests_cant": "Ranges over all lengths.", "anchors": ["src/lightspeed/base/iter/iterator.h: IteratorBase::blockRead, WriteIteratorBase::copy, blockWrite, blockCopy"]}
{"id": "C209", "title": "Count returned by blockCopy", "statement": "blockCopy copies the items up to the limit and returns how many were copied.", "quantifier": "all streams, buffers, targets and limits", "why_tests_cant": "Ranges over all lengths.", "anchors": ["src/lightspeed/base/iter/iterator.h: IteratorBase::blockRead, WriteIteratorBase::copy, blockWrite, blockCopy"]}
{"id": "C210", "title": "Order of time stamps", "statement": "Every constructor gives a time stamp with its time within the day, and the six relational operators, equality and isNull of TimeStamp agree with the point of time in milliseconds.", "quantifier": "all pairs of time stamps", "why_tests_cant": "Ranges over all days and times.", "anchors": ["src/lightspeed/base/timestamp.h: TimeStamp, compare", "src/lightspeed/base/compare.h: Comparable"]}
{"id": "C211", "title": "Sum and difference of time stamps", "statement": "The sum and difference of two time stamps are the sum and difference in milliseconds, normalised, and adding back the difference gives the first time stamp, as long as the days stay in range.", "quantifier": "all pairs of time stamps", "why_tests_cant": "Carry and borrow occur for few values.", "anchors": ["src/lightspeed/base/timestamp.h: operator+, operator-, fixOverflow, fixUnderflow"]}
{"id": "C212", "title": "Unix time from 1970 on", "statement": "fromUnix (with or without milliseconds) and fromSeconds of a time from 1970 on give that point of time, and asUnix gives the second back; asUnix of every time stamp is its second.", "quantifier": "all times from 1970 on", "why_tests_cant": "All 64 bit times.", "anchors": ["src/lightspeed/base/timestamp.h: fromUnix, fromSeconds, asUnix, getMS"]}
{"id": "C213", "title": "Unix time before 1970", "statement": "asUnix of fromUnix of a time before 1970 gives that time.", "quantifier": "all negative times", "why_tests_cant": "Mixed signed and unsigned arithmetic.", "anchors": ["src/lightspeed/base/timestamp.h: fromUnix, asUnix"]}
{"id": "C214", "title": "Intervals", "statement": "intervalMSec, intervalSec, intervalHour and intervalDay of n are n units long, and getMilis, getSecs, getMins, getHours give the whole units of a time stamp that is not negative.", "quantifier": "all counts within range, all time stamps", "why_tests_cant": "All counts.", "anchors": ["src/lightspeed/base/timestamp.h: intervalMSec, intervalSec, intervalHour, intervalDay, getMilis, getSecs, getMins, getHours"]}
{"id": "C215", "title": "Intervals of minutes", "statement": "intervalMin of n is n minutes long.", "quantifier": "all counts", "why_tests_cant": "Short intervals are right.", "anchors": ["src/lightspeed/base/timestamp.h: intervalMin"]}
{"id": "C216", "title": "Windows file times", "statement": "fromWindows takes a count of 100 ns since 1 January 1601 to the same point of time, rounded down to milliseconds.", "quantifier": "all 64 bit file times", "why_tests_cant": "The distance between the two epochs depends on the calendar.", "anchors": ["src/lightspeed/base/timestamp.h: fromWindows"]}
{"id": "C217", "title": "Calendar dates from 1970 on", "statement": "fromYMDhms of a valid date from 1970 on and a time of day gives that point of time; with year 0 it gives an offset of months of 30 days, days, hours, minutes and seconds.", "quantifier": "all valid dates from 1970 on, all offsets", "why_tests_cant": "All dates.", "anchors": ["src/lightspeed/base/linux/timestamp.cpp: TimeStamp::fromYMDhms"]}
{"id": "C218", "title": "Calendar dates before 1970", "statement": "fromYMDhms of a valid date before 1970 gives that point of time.", "quantifier": "all valid dates before 1970", "why_tests_cant": "Only dates before 1970 show it.", "anchors": ["src/lightspeed/base/linux/timestamp.cpp: TimeStamp::fromYMDhms"]}
{"id": "C219", "title": "Time stamps as text", "statement": "asDBTime, asISO8601Time and asRFC1123Time show date, time of day (and weekday) of the nearest second.", "quantifier": "all time stamps of the years 0 to 9999", "why_tests_cant": "All dates, with rounding into the next day, month and year.", "anchors": ["src/lightspeed/base/timestamp.cpp: asDBTime, asISO8601Time, asRFC1123Time", "src/lightspeed/base/linux/timestamp.cpp: TimeStamp::formatTime"]}
{"id": "C220", "title": "A parser pattern is accepted exactly if the text matches", "statement": "For every pattern made of texts, blanks and fields (any characters, signed/unsigned/hexadecimal/octal numbers, identifiers, character sets, sets with ^ and single characters; with or without length limits, open or closed fields, accept-rest at the end) and every text: the call returns true exactly if the text can be split as the pattern says, and then parser[n] is the text of field n in the first such split (searched fields as short as possible, left to right). It never throws.", "quantifier": "all such patterns, all texts", "why_tests_cant": "the search backtracks over all splits of the text, and failed attempts write into the same buffers as the final one", "anchors": ["src/lightspeed/base/text/textParser.tcc: TextParser::parse, parseArg, parseAsterix, parseCharList, parseRange, handleCustomPatterns"]}
{"id": "C221", "title": "A quoted field gives back the text that was quoted", "statement": "For every text, quote sign and escape sign (different, or the same for doubled quotes): parsing the quoted text with the quote pattern consumes exactly the quoted text, stores the original text and goes on with the rest of the pattern.", "quantifier": "all texts, all quote and escape signs, all following patterns", "why_tests_cant": "escape sequences may occur anywhere and in any number", "anchors": ["src/lightspeed/base/text/textParser.tcc: TextParser::parseQuoted"]}
{"id": "C222", "title": "A decimal number is parsed to its value", "statement": "For every text of decimal digits with a value below 2^64, the pattern %u1 accepts it and parser[1] as a number is that value.", "quantifier": "all numerals of any length (also with leading zeros)", "why_tests_cant": "the conversion loops over any number of digits and wraps at 2^64", "anchors": ["src/lightspeed/base/text/textParser.tcc: TextParser::parseNumber", "src/lightspeed/base/text/textParser.cpp: stringToUnsignedNumber"]}
{"id": "C223", "title": "A set with ^ and a range takes the characters outside the range", "statement": "A field [^a-b] takes a character exactly if it is not between a and b (documentation: [^0-9] extracts until a digit is reached).", "quantifier": "all ranges, all characters", "why_tests_cant": "the condition is a mixture of two comparisons whose precedence matters only for some characters", "anchors": ["src/lightspeed/base/text/textParser.tcc: TextParser::parseCharList"]}
{"id": "C224", "title": "Alternatives accept exactly the texts of their branches", "statement": "A pattern with alternatives accepts a text exactly if one of the branches followed by the rest of the pattern accepts it.", "quantifier": "all branches, all texts", "why_tests_cant": "depends on how far a failed branch has read", "anchors": ["src/lightspeed/base/text/textParser.tcc: TextParser::parseAlternateBranch"]}
{"id": "C225", "title": "Every call of the parser comes to an end", "statement": "For every pattern and every text the call returns or throws after finitely many steps.", "quantifier": "all patterns, all texts", "why_tests_cant": "non-termination cannot be observed by a test", "anchors": ["src/lightspeed/base/text/textParser.tcc: TextParser::skipPattern"]}
{"id": "C226", "title": "A field used twice holds the texts of all its places", "statement": "If a pattern uses a field number at several places, the field holds the collected texts in order of appearance (documentation).", "quantifier": "all texts", "why_tests_cant": "documented for any number of places", "anchors": ["src/lightspeed/base/text/textParser.tcc: TextParser::parseArg"]}
{"id": "C227", "title": "Unsigned number fields accept a plus sign", "statement": "%u accepts numbers with a plus sign in front (documentation: only + is allowed).", "quantifier": "all numbers", "why_tests_cant": "a documented case of all inputs", "anchors": ["src/lightspeed/base/text/textParser.tcc: TextParser::parseNumber"]}
{"id": "C228", "title": "Ill-formed quoted texts are rejected", "statement": "A quoted field rejects a text that is not closed by a quote sign, with the result false and without an exception.", "quantifier": "all texts, all quote and escape signs", "why_tests_cant": "depends on the last character of an arbitrary text", "anchors": ["src/lightspeed/base/text/textParser.tcc: TextParser::parseQuoted"]}
{"id": "C229", "title": "Length limits of fields are respected", "statement": "A field with limits (min,max) never takes more than max characters.", "quantifier": "all texts", "why_tests_cant": "the limit is compared with the length of a buffer that failed attempts may have cut", "anchors": ["src/lightspeed/base/text/textParser.tcc: TextParser::parseCharList, parseAsterixEnter"]}
{"id": "C230", "title": "Database times are read as the point of time they name", "statement": "fromDBTime of 'YYYY-MM-DD hh:mm:ss', with any spaces and tabs before, between and after, is exactly that point of time; so fromDBTime(asDBTime(t)) is t rounded to seconds.", "quantifier": "all dates of the years 1970 to 9999, all times of day, any spaces", "why_tests_cant": "the result depends on the pattern parser, the calendar and the carry of the sum together; there are too many dates and texts to try", "anchors": ["src/lightspeed/base/timestamp.cpp: TimeStamp::fromDBTime"]}
{"id": "C231", "title": "ISO times in UTC are read as the point of time they name", "statement": "fromISO8601Time of 'YYYY-MM-DDThh:mm:ssZ' is exactly that point of time; so fromISO8601Time(asISO8601Time(t)) is t rounded to seconds.", "quantifier": "all dates of the years 1970 to 9999, all times of day", "why_tests_cant": "the result depends on the pattern parser, the calendar and the carry of the sum together; there are too many dates and texts to try", "anchors": ["src/lightspeed/base/timestamp.cpp: TimeStamp::fromISO8601Time, parse8601date, parse8601time"]}
{"id": "C232", "title": "A date alone is midnight, a time alone is a distance from midnight", "statement": "fromISO8601Time of 'YYYY-MM-DD' and 'YYYYMMDD' and fromDBTime of 'YYYY-MM-DD' give midnight of that day; fromDBTime of 'hh:mm:ss' gives the distance from midnight.", "quantifier": "all dates of the years 1970 to 9999, all times of day, any spaces", "why_tests_cant": "the result depends on the pattern parser, the calendar and the carry of the sum together; there are too many dates and texts to try", "anchors": ["src/lightspeed/base/timestamp.cpp: TimeStamp::fromDBTime, fromISO8601Time, parse8601date"]}
{"id": "C233", "title": "A zone east of Greenwich is subtracted", "statement": "fromISO8601Time of a time with the zone '+hh:mm' gives the time minus the offset.", "quantifier": "all dates of the years 1970 to 9999, all times of day, all zones", "why_tests_cant": "tests use a few zones only", "anchors": ["src/lightspeed/base/timestamp.cpp: parse8601time"]}
{"id": "C234", "title": "A zone west of Greenwich is added", "statement": "fromISO8601Time of a time with the zone '-hh:mm' or '-hhmm' gives the time plus the offset.", "quantifier": "all dates of the years 1970 to 9999, all times of day, all zones", "why_tests_cant": "wrong only above a certain offset, or in one of the two forms", "anchors": ["src/lightspeed/base/timestamp.cpp: parse8601time", "src/lightspeed/base/timestamp.h: TimeStamp::intervalMin"]}
{"id": "C235", "title": "A fraction of a second is not lost", "statement": "fromISO8601Time of a time with a fraction gives the point of time with the fraction in milliseconds.", "quantifier": "all dates of the years 1970 to 9999, all times of day, all fractions", "why_tests_cant": "tests use a few fractions only", "anchors": ["src/lightspeed/base/timestamp.cpp: parse8601time"]}
{"id": "C236", "title": "Times without colons are accepted", "statement": "fromISO8601Time accepts the basic forms hhmm and hhmmss of a time.", "quantifier": "all dates of the years 1970 to 9999, all times of day", "why_tests_cant": "depends on how two stages of a pattern interact", "anchors": ["src/lightspeed/base/timestamp.cpp: parse8601time"]}
{"id": "C237", "title": "A malformed time is rejected", "statement": "fromISO8601Time throws if the part after T is not a time.", "quantifier": "all texts after T", "why_tests_cant": "malformed texts cannot be enumerated", "anchors": ["src/lightspeed/base/timestamp.cpp: parse8601time"]}
{"id": "C238", "title": "A week date is the Monday of that week", "statement": "fromISO8601Time of 'YYYY-Www' is the Monday of the week ww of the year.", "quantifier": "all years and weeks", "why_tests_cant": "right only in the years that begin with a Monday", "anchors": ["src/lightspeed/base/timestamp.cpp: parse8601date"]}
{"id": "C239", "title": "Strings are values although they share buffers", "statement": "Whatever is done with a set of string variables (load a text, assign, clear, isolate, copy, getMT, store a character through data(), write through an iterator; createBuffer for byte strings), every variable reads the text a plain value would hold, c_str() of char strings is that text closed by a zero, no freed buffer is used, and no buffer stays allocated that no variable holds.", "quantifier": "all numbers of variables, all histories of these operations without self-assignment, all texts below 2^63 characters", "why_tests_cant": "a wrong count or a missed copy shows only for certain orders of sharing and writing; histories cannot be enumerated", "anchors": ["src/lightspeed/base/containers/stringBase.h: StringCore, StringBufferHdr, PStringBufferHdr", "src/lightspeed/base/memory/refCntPtr.h: RefCntPtr"]}
{"id": "C240", "title": "Assigning a string to itself changes nothing", "statement": "After s = s the string still has its text, and its buffer is freed when the string ends.", "quantifier": "all texts", "why_tests_cant": "self-assignment happens through aliases tests do not set up", "anchors": ["src/lightspeed/base/containers/stringBase.h: StringCore", "src/lightspeed/base/memory/refCntPtr.h: RefCntPtr::operator="]}
{"id": "C241", "title": "createBuffer makes room for all characters", "statement": "After createBuffer(n) on a char or wchar_t string and filling the n characters, the string has exactly these n characters and c_str() is closed by a zero.", "quantifier": "all n, all texts of n characters", "why_tests_cant": "the memory behind the buffer often holds a zero by chance", "anchors": ["src/lightspeed/base/containers/stringBase.h: StringCore::createBuffer, data"]}
{"id": "C242", "title": "A write into a full string iterator is reported", "statement": "Writing one more character than createBufferIter was called for throws, and leaves the string closed by a zero.", "quantifier": "all characters", "why_tests_cant": "the memory behind the buffer often holds a zero by chance", "anchors": ["src/lightspeed/base/containers/stringBase.h: StringCore::WriteIterator::write", "src/lightspeed/base/iter/iterator.h: IWriteIterator::write"]}
{"id": "C243", "title": "Strings are compared in a total order", "statement": "Comparison of strings is the order by the first difference, a total order whose equality is that of texts; ==, !=, <, > and >= of a string and a literal answer by the same order.", "quantifier": "all texts, all literals", "why_tests_cant": "pairs and triples of texts cannot be enumerated", "anchors": ["src/lightspeed/base/containers/string.tcc: StrCmpCS", "src/lightspeed/base/containers/constStr.h: operators with literals, makeCStr"]}
{"id": "C244", "title": "A string is compared with a literal by <= as by the order", "statement": "c <= \"literal\" is true exactly if c is not after the literal.", "quantifier": "all texts, all literals", "why_tests_cant": "tests of <= with equal texts pass", "anchors": ["src/lightspeed/base/containers/constStr.h: operator<="]}
{"id": "C245", "title": "Comparison without case is the order of the lower case texts", "statement": "For texts without zeros, the comparison that ignores case is the order of the texts in lower case (C locale).", "quantifier": "all pairs of texts, the first without zeros", "why_tests_cant": "pairs of texts cannot be enumerated", "anchors": ["src/lightspeed/base/linux/string.cpp: StrCmpCI<char>"]}
{"id": "C246", "title": "Comparison without case sees the whole text", "statement": "Texts that differ, also without regard to case, do not compare as equal, whatever characters they hold.", "quantifier": "all pairs of texts", "why_tests_cant": "tests do not use texts with zeros", "anchors": ["src/lightspeed/base/linux/string.cpp: StrCmpCI<char>"]}
{"id": "C247", "title": "A chunked request is framed correctly", "statement": "Between beginBody and reset, whatever bytes are written in whatever pieces, with flushes and changes of the chunk size anywhere, the output is the request line, every set field once with its last value, the field Transfer-Encoding: chunked, and a chunked coding of exactly the written bytes; afterwards the object is ready for the next request.", "quantifier": "all methods, paths, sequences of addHeader calls, all histories of write, flush and setMaxChunkSize with less than 2^64 bytes", "why_tests_cant": "the pieces and the chunk sizes cannot be enumerated", "anchors": ["src/lightspeed/base/streams/httpc.tcc: HttpRequest::addHeader, beginBody, sendHeaders, write, flush, sendChunk, reset"]}
{"id": "C248", "title": "A request sent at once is framed correctly", "statement": "send(data) outputs the request line, every set field once with its last value, Content-Length with the decimal length, and the data; send() does the same without length and data; afterwards the object is ready for the next request.", "quantifier": "all methods, paths, sequences of addHeader calls, all data below 2^64 bytes", "why_tests_cant": "inputs cannot be enumerated", "anchors": ["src/lightspeed/base/streams/httpc.tcc: HttpRequest::send, sendHeaders"]}
{"id": "C249", "title": "A chunked request has no length field", "statement": "As documented, Content-Length cannot be set: a chunked request does not carry it.", "quantifier": "all requests", "why_tests_cant": "a server often accepts both fields", "anchors": ["src/lightspeed/base/streams/httpc.tcc: HttpRequest::sendHeaders"]}
{"id": "C250", "title": "reset drops the whole request", "statement": "After reset, nothing of the dropped request appears in the next one.", "quantifier": "all bytes written before reset", "why_tests_cant": "tests seldom drop a request half way", "anchors": ["src/lightspeed/base/streams/httpc.tcc: HttpRequest::reset, write"]}
{"id": "C251", "title": "Chunks are always announced", "statement": "If the body is sent as chunks, the head announces the chunked coding.", "quantifier": "all bodies", "why_tests_cant": "needs a peer that checks the framing", "anchors": ["src/lightspeed/base/streams/httpc.tcc: HttpRequest::flush, sendHeaders"]}
{"id": "C252", "title": "setUrl takes an address apart", "statement": "For protocol://host followed by nothing or by a path that begins with /, setUrl sets the path (/ if there is none) and the field Host, and nothing else.", "quantifier": "all four protocols, hosts without / and @, all paths", "why_tests_cant": "inputs cannot be enumerated", "anchors": ["src/lightspeed/base/streams/httpc.tcc: HttpRequest::setUrl"]}
{"id": "C253", "title": "setUrl keeps a query out of the host", "statement": "For protocol://host?query the field Host is the host and the path keeps the query.", "quantifier": "all hosts and queries", "why_tests_cant": "tests use addresses with a path", "anchors": ["src/lightspeed/base/streams/httpc.tcc: HttpRequest::setUrl"]}
{"id": "C254", "title": "The head of a response is read", "statement": "open skips empty lines, returns the status code, keeps the reason phrase and the fields (the first value of a name counts, blanks around a value are dropped), and stops exactly at the begin of the body.", "quantifier": "all well-formed heads, any number of fields and of leading empty lines", "why_tests_cant": "inputs cannot be enumerated", "anchors": ["src/lightspeed/base/streams/httpc.tcc: HttpResponse::open, readLine, parseNumber, trim, getHeader"]}
{"id": "C255", "title": "A body of announced length is read exactly", "statement": "With Content-Length, whatever the order of hasItems, getNext and peek, the bytes of the body are delivered once and in order, hasItems is false exactly at the end, nothing behind the body is taken; reset skips what was not read and the next response can be opened.", "quantifier": "all bodies below 2^64-1 bytes, all that follows, all histories that ask for a byte only if there is one", "why_tests_cant": "histories cannot be enumerated", "anchors": ["src/lightspeed/base/streams/httpc.tcc: HttpResponse::hasItems, getNext, peek, reset"]}
{"id": "C256", "title": "A chunked body is read exactly", "statement": "For chunk sizes without a small letter other than at the first and the last place, whatever the chunks, extensions and order of questions, the bytes of the body are delivered once and in order, and when the end is reported nothing behind the body was taken.", "quantifier": "all chunked codings of all bodies, without trailer, all histories that stop at the reported end", "why_tests_cant": "chunkings and histories cannot be enumerated", "anchors": ["src/lightspeed/base/streams/httpc.tcc: HttpResponse::openChunk, hasItems, getNext, peek, parseNumber"]}
{"id": "C257", "title": "Chunk sizes are read in either case of letters", "statement": "A chunk whose size is written in small letters, as the library itself writes it, has the announced size.", "quantifier": "all sizes", "why_tests_cant": "small chunks have sizes of one or two digits", "anchors": ["src/lightspeed/base/streams/httpc.tcc: HttpResponse::parseNumber, HttpRequest::sendChunk"]}
{"id": "C258", "title": "The end of a chunked body can be asked again", "statement": "After the end of a chunked body was reported, hasItems answers false again and reset returns.", "quantifier": "all chunked responses", "why_tests_cant": "a test that hangs is not written", "anchors": ["src/lightspeed/base/streams/httpc.tcc: HttpResponse::openChunk, hasItems, reset"]}
{"id": "C259", "title": "A closed connection is reported", "statement": "If the connection is closed before a response or between two chunks, open and hasItems return or throw.", "quantifier": "all inputs without a complete line", "why_tests_cant": "needs a peer that closes at the right moment", "anchors": ["src/lightspeed/base/streams/httpc.tcc: HttpResponse::open, openChunk, readLine"]}
{"id": "C260", "title": "Field names have no case", "statement": "The end of the body is found also if the server writes the names Content-Length and Transfer-Encoding in small letters.", "quantifier": "all responses with names in small letters", "why_tests_cant": "depends on the server", "anchors": ["src/lightspeed/base/streams/httpc.tcc: HttpResponse::open, getHeader"]}
{"id": "C261", "title": "Reading behind the end of a body throws", "statement": "getNext at the end of a body of announced length throws and takes nothing from the connection.", "quantifier": "all responses with Content-Length followed by more data", "why_tests_cant": "needs pipelined responses", "anchors": ["src/lightspeed/base/streams/httpc.tcc: HttpResponse::getNext"]}
{"id": "C262", "title": "Trailer fields are taken off", "statement": "After the end of a chunked body with trailer fields, the connection is at the begin of the next response.", "quantifier": "all trailers", "why_tests_cant": "few servers send trailers", "anchors": ["src/lightspeed/base/streams/httpc.tcc: HttpResponse::openChunk"]}
{"id": "C263", "title": "A missing reason phrase is an empty one", "statement": "If the status line ends with the code, the status message is empty.", "quantifier": "all responses", "why_tests_cant": "reads of foreign memory may go unnoticed", "anchors": ["src/lightspeed/base/streams/httpc.tcc: HttpResponse::open", "src/lightspeed/base/containers/arrayt.h: SplitIterator::getRest"]}
{"id": "C264", "title": "Reading opens the response", "statement": "As documented, hasItems, getNext and peek open the response if it is not open.", "quantifier": "all inputs", "why_tests_cant": "the outcome depends on what was in the memory", "anchors": ["src/lightspeed/base/streams/httpc.tcc: HttpResponse::HttpResponse, hasItems, getNext, peek"]}
{"id": "C265", "title": "An incomplete head is refused", "statement": "If the connection is closed inside of the head, open does not answer as for a complete head.", "quantifier": "all positions of the cut at or behind the first field", "why_tests_cant": "needs a peer that closes at the right moment", "anchors": ["src/lightspeed/base/streams/httpc.tcc: HttpResponse::open, readLine"]}
{"id": "C266", "title": "A body without a length lasts to the end of the connection", "statement": "If neither Content-Length nor Transfer-Encoding is sent, whatever the order of hasItems, getNext and peek, all bytes up to the end of the connection are delivered once and in order, hasItems is false exactly at the end, and getNext and peek throw there.", "quantifier": "all bodies, all histories that ask for a byte only if there is one", "why_tests_cant": "histories cannot be enumerated", "anchors": ["src/lightspeed/base/streams/httpc.tcc: HttpResponse::hasItems, getNext, peek, fetchByte"]}
{"id": "C267", "title": "Reading through the URL decoder", "statement": "A read iterator with the URL decoding filter acts, for every order of hasItems, getNext and peek, as a cursor over the decoded bytes: '+' is a space, '%' with two hex digits of either case is that byte, every other character is itself; each byte comes once and in order.", "quantifier": "all well-formed texts, all histories that ask for an item only if there is one", "why_tests_cant": "texts and histories cannot be enumerated", "anchors": ["src/lightspeed/utils/urlencode.h: UrlDecoder", "src/lightspeed/base/iter/iteratorFilter.tcc: FilterRead::hasItems, getNext, peek"]}
{"id": "C268", "title": "Writing through the URL decoder", "statement": "If a well-formed text is written through the URL decoding filter, its decoded bytes arrive at the target in order, nothing is held back after the last character, and flush adds nothing.", "quantifier": "all well-formed texts", "why_tests_cant": "texts cannot be enumerated", "anchors": ["src/lightspeed/utils/urlencode.h: UrlDecoder", "src/lightspeed/base/iter/iteratorFilter.tcc: FilterWrite::write, flush"]}
{"id": "C269", "title": "URL encoding is reversed by URL decoding", "statement": "The URL encoding filter gives for every byte string, when read through (in any order of hasItems, getNext, peek) and when written through, exactly the text in which letters, digits, '_' and '-' stand for themselves and every other byte is '%' with two capital hex digits; this text decodes to the byte string.", "quantifier": "all byte strings, all histories", "why_tests_cant": "byte strings and histories cannot be enumerated", "anchors": ["src/lightspeed/utils/urlencode.h: UrlEncoder", "src/lightspeed/base/iter/iteratorFilter.tcc: FilterRead, FilterWrite"]}
{"id": "C270", "title": "The query parser delivers all fields", "statement": "For a path followed by '?' and non-empty parts joined with '&', each name=value with a well-formed value or a name alone, getPath and getQuery return the two halves, and hasItems, getNext and peek act in every order as a cursor over the pairs of name and decoded value, with the value \"1\" for a name alone; a field returned by getNext is intact although the next one was already read ahead.", "quantifier": "all paths, all lists of parts, all histories", "why_tests_cant": "queries and histories cannot be enumerated", "anchors": ["src/lightspeed/utils/queryParser.cpp: QueryParser::QueryParser, getNext, peek, hasItems, preload"]}
{"id": "C271", "title": "A path without a query has no fields", "statement": "If there is no '?' in the path, the query parser has no items.", "quantifier": "all paths without '?'", "why_tests_cant": "all paths", "anchors": ["src/lightspeed/utils/queryParser.cpp: QueryParser::preload"]}
{"id": "C272", "title": "Empty parts of a query are skipped", "statement": "An empty part between two '&' has no effect: the fields before and after it are delivered as if it were not there.", "quantifier": "all queries with an empty part", "why_tests_cant": "queries cannot be enumerated", "anchors": ["src/lightspeed/utils/queryParser.cpp: QueryParser::preload"]}
{"id": "C273", "title": "Names in a query are URL-decoded", "statement": "The name of a field is delivered URL-decoded, as the class says about itself.", "quantifier": "all well-formed names", "why_tests_cant": "names cannot be enumerated", "anchors": ["src/lightspeed/utils/queryParser.cpp: QueryParser::preload", "src/lightspeed/utils/queryParser.h: QueryParser"]}
{"id": "C274", "title": "A malformed escape is reported", "statement": "If '%' is not followed by two hex digits, decoding ends with an error; nothing is made up.", "quantifier": "all texts with a malformed escape", "why_tests_cant": "texts cannot be enumerated", "anchors": ["src/lightspeed/utils/urlencode.h: UrlDecoder", "src/lightspeed/utils/queryParser.cpp: QueryParser::preload"]}
{"id": "C275", "title": "A block read ends at the end of the source", "statement": "blockRead of a filtered iterator with readAll = false reads at most the items that are there and returns their number, zero at the end.", "quantifier": "all texts, all buffer lengths", "why_tests_cant": "texts and lengths cannot be enumerated", "anchors": ["src/lightspeed/base/iter/iteratorFilter.tcc: FilterRead::blockRead", "src/lightspeed/base/iter/iterator.h: IIterator::blockRead"]}
{"id": "C276", "title": "A block read with readAll fills the buffer", "statement": "blockRead of a filtered iterator with readAll = true fills the whole buffer with the next items, the first of them being the item seen by peek.", "quantifier": "all texts, all buffer lengths", "why_tests_cant": "texts and lengths cannot be enumerated", "anchors": ["src/lightspeed/base/iter/iteratorFilter.tcc: FilterRead::blockRead", "src/lightspeed/base/iter/iterator.h: IIterator::blockRead"]}
{"id": "C277", "title": "Sums and differences of times are exact", "statement": "The sum and the difference of two times have exactly the sum and the difference of their microseconds, with microseconds between 0 and 999999, also if the difference is negative.", "quantifier": "all pairs of times within 2^62 seconds", "why_tests_cant": "pairs of times cannot be enumerated", "anchors": ["src/lightspeed/mt/linux/systime.h: SysTime::operator+, operator-, normalizeDiv, normalizeMod"]}
{"id": "C278", "title": "A difference of two times is never the nil time", "statement": "The difference of two defined times is a defined time, also if it is negative, so that adding it again gives the first time.", "quantifier": "all pairs of times", "why_tests_cant": "pairs of times cannot be enumerated", "anchors": ["src/lightspeed/mt/linux/systime.h: SysTime::operator-, isNil"]}
{"id": "C279", "title": "Readings of a time span", "statement": "msecs, secs, mins, hours and days are the whole milliseconds, seconds, minutes, hours and days of a span; hour, min, sec and msec are below 24, 60, 60 and 1000 and give with days the span again.", "quantifier": "all spans below 2^53 seconds", "why_tests_cant": "spans cannot be enumerated", "anchors": ["src/lightspeed/mt/linux/systime.h: SysTime::msecs, secs, mins, hours, days, msec, sec, min, hour"]}
{"id": "C280", "title": "A span made of parts", "statement": "The span made of days, hours, minutes, seconds and milliseconds is their total, whatever the size of each part.", "quantifier": "all parts with a total below 2^53 seconds", "why_tests_cant": "parts cannot be enumerated", "anchors": ["src/lightspeed/mt/linux/systime.h: SysTime::SysTime(natural, natural, natural, natural, natural)"]}
{"id": "C281", "title": "A timeout expires exactly after its time", "statement": "A timeout of ms milliseconds after a time is expired at t exactly if t is later than that time plus ms; the remaining time is the rest, zero if it is expired; with naturalNull it is infinite: it never expires and its remaining time is nil; with any other number it is finite.", "quantifier": "all times below 2^61 seconds, all 64 bit numbers of milliseconds", "why_tests_cant": "times and numbers cannot be enumerated", "anchors": ["src/lightspeed/mt/timeout.h: Timeout::Timeout(const SysTime&, natural), expired, getRemain, isInfinite"]}
{"id": "C282", "title": "Timeouts are ordered by expiry", "statement": "A timeout is less than another one exactly if it expires sooner; infinite timeouts are the greatest and not less than each other.", "quantifier": "all pairs of timeouts", "why_tests_cant": "pairs cannot be enumerated", "anchors": ["src/lightspeed/mt/timeout.h: Timeout::lessThan"]}
{"id": "C283", "title": "Equal timeouts expire at the same time", "statement": "Two timeouts compare equal only if both are infinite or both expire at the same time.", "quantifier": "all pairs of timeouts", "why_tests_cant": "pairs cannot be enumerated", "anchors": ["src/lightspeed/mt/timeout.h: Timeout::equalTo", "src/lightspeed/base/compare.h: ComparableLess::operator=="]}
{"id": "C284", "title": "A pooled resource has one owner", "statement": "Between acquiring and releasing, a resource of the pool belongs to one client only and is neither in the pool nor destroyed; no resource is destroyed twice or used after its destruction.", "quantifier": "all numbers of clients, limits, schedules, expirations, timeouts and failures to create a resource", "why_tests_cant": "schedules cannot be enumerated", "anchors": ["src/lightspeed/base/containers/resourcePool.cpp: AbstractResourcePool::acquire, release"]}
{"id": "C285", "title": "The pool keeps account of its resources", "statement": "When no call is in progress, the existing resources are exactly those in the pool and those that clients own, and their number together with the current limit is the limit of the pool.", "quantifier": "all schedules that lead to a state without calls in progress (waiting is allowed)", "why_tests_cant": "schedules cannot be enumerated", "anchors": ["src/lightspeed/base/containers/resourcePool.cpp: AbstractResourcePool::acquire, release, getCurLimit"]}
{"id": "C286", "title": "No client waits while the pool has a resource", "statement": "While a client waits for a resource, no resource lies in the pool.", "quantifier": "all schedules", "why_tests_cant": "schedules cannot be enumerated", "anchors": ["src/lightspeed/base/containers/resourcePool.cpp: AbstractResourcePool::acquire, release"]}
{"id": "C287", "title": "The limit holds if resources are created one at a time", "statement": "If at most one client at a time is between the check of the limit and its count, the number of resources never exceeds the limit.", "quantifier": "all schedules without overlapping creations", "why_tests_cant": "schedules cannot be enumerated", "anchors": ["src/lightspeed/base/containers/resourcePool.cpp: AbstractResourcePool::acquire"]}
{"id": "C288", "title": "The limit of the pool is never exceeded", "statement": "There are never more resources than the limit of the pool.", "quantifier": "all schedules", "why_tests_cant": "schedules cannot be enumerated", "anchors": ["src/lightspeed/base/containers/resourcePool.cpp: AbstractResourcePool::acquire"]}
{"id": "C289", "title": "A client waits only while the limit is reached", "statement": "When no call is in progress, a client waits only if the number of resources has reached the limit.", "quantifier": "all schedules that lead to a state without calls in progress", "why_tests_cant": "schedules cannot be enumerated", "anchors": ["src/lightspeed/base/containers/resourcePool.cpp: AbstractResourcePool::acquire, release"]}
{"id": "C290", "title": "setLimit sets the limit", "statement": "After setLimit the limit is the given one, and the current limit is what is left of it.", "quantifier": "all limits and numbers of resources in use", "why_tests_cant": "numbers cannot be enumerated", "anchors": ["src/lightspeed/base/containers/resourcePool.cpp: AbstractResourcePool::setLimit, getLimit, getCurLimit"]}
{"id": "C291", "title": "An action given to the executor is executed exactly once", "statement": "If execute returns, its action has been taken over by one worker that executes it exactly once; if execute throws the timeout, the action is never executed; the action and the notifier of a call are never used after the call is over.", "quantifier": "all settings, all interleavings of the caller and the workers, all timeouts, all histories of execute and stopAll", "why_tests_cant": "interleavings cannot be enumerated", "anchors": ["src/lightspeed/base/actions/parallelExecutor.cpp: ParallelExecutor::execute, stopAll", "src/lightspeed/base/actions/parallelExecutor.cpp: ParallelExecutor::Worker::run, runAction"]}
{"id": "C292", "title": "The number of threads is respected without idle timeouts", "statement": "If idle workers never end (the default), there are never more threads than the maximum.", "quantifier": "all maxima and all interleavings", "why_tests_cant": "interleavings cannot be enumerated", "anchors": ["src/lightspeed/base/actions/parallelExecutor.cpp: ParallelExecutor::execute, startNewThread", "src/lightspeed/base/actions/parallelExecutor.cpp: ParallelExecutor::Worker::run"]}
{"id": "C293", "title": "Never more actions at once than the maximum of threads", "statement": "At most maxThreads actions are executed at the same time, also with idle timeouts.", "quantifier": "all interleavings", "why_tests_cant": "interleavings cannot be enumerated", "anchors": ["src/lightspeed/base/actions/parallelExecutor.cpp: ParallelExecutor::execute, startNewThread", "src/lightspeed/base/actions/parallelExecutor.cpp: ParallelExecutor::Worker::run"]}
{"id": "C294", "title": "execute does not hang without idle timeouts and stopAll", "statement": "If idle workers never end and stopAll was never called, a call of execute can return from every state: no wake-up is lost and a worker is always there.", "quantifier": "all maxima of at least one thread and all interleavings", "why_tests_cant": "interleavings cannot be enumerated", "anchors": ["src/lightspeed/base/actions/parallelExecutor.cpp: ParallelExecutor::execute, wakeThread, startNewThread", "src/lightspeed/base/actions/parallelExecutor.cpp: ParallelExecutor::Worker::run"]}
{"id": "C295", "title": "The executor can be used again after stopAll", "statement": "As documented, executing an action cancels the order to stop: the action is executed.", "quantifier": "all histories with stopAll", "why_tests_cant": "histories cannot be enumerated", "anchors": ["src/lightspeed/base/actions/parallelExecutor.cpp: ParallelExecutor::stopAll, execute, startNewThread"]}
{"id": "C296", "title": "execute does not hang with idle timeouts", "statement": "With an idle timeout a call of execute that waits without limit is eventually served.", "quantifier": "all interleavings without stopAll", "why_tests_cant": "interleavings cannot be enumerated", "anchors": ["src/lightspeed/base/actions/parallelExecutor.cpp: ParallelExecutor::execute, startNewThread", "src/lightspeed/base/actions/parallelExecutor.cpp: ParallelExecutor::Worker::run"]}
{"id": "C297", "title": "A well formed configuration is read exactly", "statement": "A configuration made of sections, fields with plain or quoted values, comments and white space gives exactly its fields, each under its section, in their order; fields before the first section are left out. Values and section names of one character stand directly behind the sign, plain values end with a line end and quoted values do not begin or end with white space.", "quantifier": "all texts of this grammar shorter than 2^31 bytes", "why_tests_cant": "the set of texts is infinite", "anchors": ["src/lightspeed/utils/configParser.tcc: ConfigParser::getNextLine, parseSection, parseField, parseValue, getNextEscaped, trim, skipNotInteresting; IniConfigT::merge"]}
{"id": "C298", "title": "Bad lines are reported or skipped", "statement": "A line without the sign =, a section name that is not closed and a quoted value that is not closed are reported by an exception; with ignoreErrors, such lines inside sections are skipped and all other fields are read.", "quantifier": "all texts with such lines in arbitrary places", "why_tests_cant": "the set of texts is infinite", "anchors": ["src/lightspeed/utils/configParser.tcc: ConfigParser::getNextLine, parseFieldName; IniConfigT::merge"]}
{"id": "C299", "title": "Reading a configuration always ends", "statement": "For every text, also a malformed one, reading comes to an end after a number of lines bounded by the length of the text.", "quantifier": "all texts of bytes, with and without ignoreErrors", "why_tests_cant": "the set of texts is infinite", "anchors": ["src/lightspeed/utils/configParser.tcc: ConfigParser::getNextLine; IniConfigT::merge"]}
{"id": "C300", "title": "White space around a value does not matter", "statement": "A plain value is the same with and without white space in front of it.", "quantifier": "all values and paddings", "why_tests_cant": "the set of texts is infinite", "anchors": ["src/lightspeed/utils/configParser.tcc: ConfigParser::trim, parseValue"]}
{"id": "C301", "title": "The last line needs no line end", "statement": "A configuration has the same fields with and without the line end of its last line.", "quantifier": "all configurations", "why_tests_cant": "the set of texts is infinite", "anchors": ["src/lightspeed/utils/configParser.tcc: ConfigParser::parseValue"]}
{"id": "C302", "title": "A quoted value is kept as it is", "statement": "White space inside quotation marks belongs to the value, and quotation marks behind white space are recognised.", "quantifier": "all quoted values", "why_tests_cant": "the set of texts is infinite", "anchors": ["src/lightspeed/utils/configParser.tcc: ConfigParser::parseValue, trim"]}
{"id": "C303", "title": "An include line does not change the section", "statement": "Fields behind an include line belong to the section that was open before it.", "quantifier": "all configurations with include lines", "why_tests_cant": "the set of texts is infinite", "anchors": ["src/lightspeed/utils/configParser.tcc: ConfigParser::parseSpecialCommand; IniConfigT::merge"]}
{"id": "C304", "title": "No error ends the reading silently or against ignoreErrors", "statement": "Every section of a text is read or an error is reported; with ignoreErrors no bad line stops the reading.", "quantifier": "all texts", "why_tests_cant": "the set of texts is infinite", "anchors": ["src/lightspeed/utils/configParser.tcc: ConfigParser::parseSection, skipSection; IniConfigT::merge"]}
{"id": "C305", "title": "Escape sequences have their usual meaning", "statement": "The sequence \\b is the backspace, an escaped quotation mark does not close a value, an escaped byte stands for itself.", "quantifier": "all quoted values", "why_tests_cant": "the set of texts is infinite", "anchors": ["src/lightspeed/utils/configParser.tcc: ConfigParser::getNextEscaped, parseValue"]}
{"id": "C306", "title": "Names are joined to the directory of a path", "statement": "path / name1 / name2 ... is the directory of the path followed by the names with separators between them; an absolute name replaces everything before it; nil adds a separator at the end.", "quantifier": "all paths with a directory, all expressions of names, all texts as names", "why_tests_cant": "the set of expressions and texts is infinite", "anchors": ["src/lightspeed/utils/FilePath.h: FilePathT::operator/, loadPath, getPath; FilePathChain::writePath"]}
{"id": "C307", "title": "parent leads one directory up", "statement": "In every expression of clean names, absolute names and parent, in any order, the resulting path leads to the place that is reached by following the expression step by step from the root.", "quantifier": "all expressions, all directories of the base path, any number of parents (the root is its own parent)", "why_tests_cant": "the set of expressions is infinite", "anchors": ["src/lightspeed/utils/FilePath.h: FilePathT::calcParents, loadPath; FilePathChain::writePath"]}
{"id": "C308", "title": "The buffer of a path has the right size", "statement": "Making a path from an expression never fails for lack of space.", "quantifier": "all expressions in both configurations, with arbitrary texts", "why_tests_cant": "the set of expressions is infinite", "anchors": ["src/lightspeed/utils/FilePath.h: FilePathChain::getPathLength, writePath; FilePathT::loadPath"]}
{"id": "C309", "title": "The parts of a path fit together", "statement": "Directory, file name, title, extension and parent directory are the texts around the last separators, in whatever order and however often they are asked, also after an assignment.", "quantifier": "all paths with a separator that do not end with two dots, all sequences of queries", "why_tests_cant": "the set of texts and sequences is infinite", "anchors": ["src/lightspeed/utils/FilePath.h: FilePathT::getPath, getFilename, getTitle, getExtension, getParentPath, operator="]}
{"id": "C310", "title": "A path without directory is a file name", "statement": "The file name of a path without separator is the whole path.", "quantifier": "all texts without separator", "why_tests_cant": "the set of texts is infinite", "anchors": ["src/lightspeed/utils/FilePath.h: FilePathT::getFilename, getPath"]}
{"id": "C311", "title": "Only the name .. is special", "statement": "A file whose name ends with two dots is a file like others.", "quantifier": "all names but ..", "why_tests_cant": "the set of texts is infinite", "anchors": ["src/lightspeed/utils/FilePath.h: FilePathT::getPath"]}
{"id": "C312", "title": "parent works for results of expressions and for names with ..", "statement": "The parent of a directory made by an expression is the directory above it; a name that contains .. is resolved before parent is applied.", "quantifier": "all expressions", "why_tests_cant": "the set of expressions is infinite", "anchors": ["src/lightspeed/utils/FilePath.h: FilePathT::calcParents; FilePathChain::writePath"]}
{"id": "C313", "title": "A default path is an empty path", "statement": "A default constructed path can be asked for its parts and used in expressions.", "quantifier": "all expressions and queries", "why_tests_cant": "reads of uninitialised memory need not show in tests", "anchors": ["src/lightspeed/utils/FilePath.h: FilePathT::FilePathT(), getPath"]}
{"id": "C314", "title": "Relative names work on Windows", "statement": "A relative name that contains directories is joined to the path; a name that begins with a separator stays on the drive of the path.", "quantifier": "all names", "why_tests_cant": "the set of texts is infinite", "anchors": ["src/lightspeed/utils/FilePath.h: FilePathChain::FilePathChain, writePath", "src/lightspeed/utils/windows/FilePath.cpp: defaultPathConfig"]}
{"id": "C315", "title": "A path made as directory ends with one separator", "statement": "The constructor with isDirectory adds the separator if and only if it is missing; the directory of such a path is the given text.", "quantifier": "all texts", "why_tests_cant": "the set of texts is infinite", "anchors": ["src/lightspeed/utils/FilePath.h: FilePathT::FilePathT(String, bool)"]}
{"id": "C316", "title": "An action handed to a dispatcher is settled at most once", "statement": "No action is run or rejected more often than it was handed over, and the first action handed over runs in the next turn of a serving thread that was not asked to stop.", "quantifier": "all interleavings of dispatch, run, turns of the loop and quit", "why_tests_cant": "the set of histories is infinite", "anchors": ["src/lightspeed/mt/dispatcher.cpp: Dispatcher::dispatch, run, quit, getNextAction, rejectQueue"]}
{"id": "C317", "title": "Every action handed to a dispatcher is run or rejected", "statement": "Every action handed over is run by the serving thread, or its promise is rejected when the thread stops.", "quantifier": "all interleavings of dispatch, run, turns of the loop and quit", "why_tests_cant": "the set of histories is infinite", "anchors": ["src/lightspeed/mt/dispatcher.cpp: Dispatcher::getNextAction, rejectQueue, run"]}
{"id": "C318", "title": "A new action wakes the dispatcher up", "statement": "If the serving thread sleeps because nothing waits, handing over an action wakes it up.", "quantifier": "all histories before the action", "why_tests_cant": "the set of histories is infinite", "anchors": ["src/lightspeed/mt/dispatcher.cpp: Dispatcher::dispatch, onNewMessage"]}
{"id": "C319", "title": "A dispatcher that was asked to stop stops", "statement": "After quit() the serving thread leaves the dispatcher, also if it enters a moment later.", "quantifier": "all histories before quit, all numbers of turns after it", "why_tests_cant": "the set of interleavings is infinite", "anchors": ["src/lightspeed/mt/dispatcher.cpp: Dispatcher::quit, run"]}
{"id": "C320", "title": "The scheduler picks the earliest time", "statement": "An idle serving thread sleeps without limit if nothing waits, until the earliest time if that time has not passed, and otherwise takes out the earliest item; no item is lost or taken twice.", "quantifier": "all sequences of scheduled items and idle turns with arbitrary times", "why_tests_cant": "the set of histories is infinite", "anchors": ["src/lightspeed/mt/scheduler.cpp: Scheduler::schedule, onIdle, CmpQueue::operator()"]}
{"id": "C321", "title": "The scheduler resolves the promise whose time came", "statement": "The promise resolved by the scheduler is the one of the item that was taken out.", "quantifier": "all sequences of scheduled items and idle turns", "why_tests_cant": "the set of histories is infinite", "anchors": ["src/lightspeed/mt/scheduler.cpp: Scheduler::onIdle"]}
{"id": "C322", "title": "The scheduler keeps its lock", "statement": "The queue of items is used with the lock held, and only a lock that is held is released.", "quantifier": "all states, all idle turns", "why_tests_cant": "races need not show in tests", "anchors": ["src/lightspeed/mt/scheduler.cpp: Scheduler::onIdle", "src/lightspeed/mt/dispatcher.cpp: Dispatcher::run"]}
{"id": "C323", "title": "A queue executor starts every action once and in order", "statement": "Every action is started at most once and in the order of the calls of execute; actions that were not started wait or were refused because the executor was stopped; a started action has ended or is being executed.", "quantifier": "all interleavings of execute, finish, reset and any number of serving threads, with actions that may throw", "why_tests_cant": "the set of interleavings is infinite", "anchors": ["src/lightspeed/base/actions/queueExecutor.cpp: QueueExecutor::execute, finish, Server::serve"]}
{"id": "C324", "title": "No wake up of a queue executor is lost", "statement": "If an action waits and a thread serves that is not on its way out, the steps of the threads alone can start the action.", "quantifier": "all interleavings in which no thread is asked to finish, any number of threads", "why_tests_cant": "the set of interleavings is infinite", "anchors": ["src/lightspeed/base/actions/queueExecutor.cpp: QueueExecutor::wakeThread, execute, Server::serve, Server::~Server"]}
{"id": "C325", "title": "finish stops a queue executor", "statement": "After finish no action is started until reset; all threads can leave by their own steps alone, and then stopAll returns; when it returns, no action is being executed.", "quantifier": "all interleavings of clients and any number of threads", "why_tests_cant": "the set of interleavings is infinite", "anchors": ["src/lightspeed/base/actions/queueExecutor.cpp: QueueExecutor::finish, stopAll, join, Server::serve, Server::~Server"]}
{"id": "C326", "title": "A new queue executor can be used", "statement": "A new executor accepts actions and serves them.", "quantifier": "every new executor", "why_tests_cant": "reads of uninitialised memory need not show in tests", "anchors": ["src/lightspeed/base/actions/queueExecutor.cpp: QueueExecutor::QueueExecutor, execute"]}
{"id": "C327", "title": "Stopping a queue executor without threads returns", "statement": "stopAll, join and the destructor return if no thread is inside serve().", "quantifier": "all histories without a serving thread", "why_tests_cant": "waiting for ever has to be shown for all schedules", "anchors": ["src/lightspeed/base/actions/queueExecutor.cpp: QueueExecutor::QueueExecutor, stopAll, ~QueueExecutor"]}
{"id": "C328", "title": "An idle thread of a queue executor takes a waiting action", "statement": "No action waits while a serving thread is idle.", "quantifier": "all interleavings, any number of threads", "why_tests_cant": "the set of interleavings is infinite", "anchors": ["src/lightspeed/base/actions/queueExecutor.cpp: QueueExecutor::wakeThread, Server::serve"]}
{"id": "C329", "title": "isRunning says whether an action is being executed", "statement": "isRunning() is true if and only if an action is being executed.", "quantifier": "all interleavings, any number of threads", "why_tests_cant": "races need not show in tests", "anchors": ["src/lightspeed/base/actions/queueExecutor.cpp: QueueExecutor::isRunning, Server::serve"]}
{"id": "C330", "title": "A thread of a queue executor that is asked to finish does not stop the others", "statement": "If a serving thread is asked to finish, waiting actions are executed by the other threads.", "quantifier": "all interleavings, any number of threads", "why_tests_cant": "the set of interleavings is infinite", "anchors": ["src/lightspeed/base/actions/queueExecutor.cpp: QueueExecutor::Server::serve"]}
{"id": "C331", "title": "Every posted message is run or rejected once", "statement": "A message posted to the message queue is run or rejected at most once, only after it was posted, and is told at most once, after that, that it is done; when the worker is idle and the queue is empty, every message was told.", "quantifier": "all interleavings of any number of posting threads and the worker", "why_tests_cant": "the set of interleavings is infinite", "anchors": ["src/lightspeed/base/actions/msgQueue.cpp: MsgQueue::postMessage, pumpMessage, prepareQueue"]}
{"id": "C332", "title": "Ordinary messages are run in the order of posting", "statement": "When an ordinary message is run or flushed, all ordinary messages posted earlier have ended.", "quantifier": "all interleavings", "why_tests_cant": "the set of interleavings is infinite", "anchors": ["src/lightspeed/base/actions/msgQueue.cpp: MsgQueue::postMessage, prepareQueue, getNextMsg"]}
{"id": "C333", "title": "Priority messages go first", "statement": "The worker takes priority messages before ordinary ones, the newest first.", "quantifier": "all interleavings", "why_tests_cant": "the set of interleavings is infinite", "anchors": ["src/lightspeed/base/actions/msgQueue.cpp: MsgQueue::postMessage, getNextMsg"]}
{"id": "C334", "title": "No message is left behind", "statement": "From every state, steps of the worker alone lead to a state where every posted message has been told that it is done.", "quantifier": "all interleavings", "why_tests_cant": "liveness from every reachable state", "anchors": ["src/lightspeed/base/actions/msgQueue.cpp: MsgQueue::pumpMessage, prepareQueue"]}
{"id": "C335", "title": "A flush that is run rejects all that was posted before", "statement": "When the caller of flush or finish, whose message was run, is told that it is done, all messages posted before have ended; when a cancel message was run, the message to cancel has ended.", "quantifier": "all interleavings", "why_tests_cant": "the set of interleavings is infinite", "anchors": ["src/lightspeed/base/actions/msgQueue.cpp: MsgQueue::flush, wtFlush, cancelMessage, finish"]}
{"id": "C336", "title": "After flush() no earlier message waits", "statement": "When flush() returns, all messages posted before it have ended.", "quantifier": "all interleavings", "why_tests_cant": "needs a second flush at the right moment", "anchors": ["src/lightspeed/base/actions/msgQueue.cpp: MsgQueue::flush, wtFlush"]}
{"id": "C337", "title": "After cancelMessage() the message does not wait", "statement": "When cancelMessage() returns, the message to cancel has ended.", "quantifier": "all interleavings", "why_tests_cant": "needs a flush at the right moment", "anchors": ["src/lightspeed/base/actions/msgQueue.cpp: MsgQueue::cancelMessage, wtFlush"]}
{"id": "C338", "title": "After finish() the worker is asked to finish", "statement": "When finish() returns, the finish flag of the thread of the worker is set.", "quantifier": "all interleavings", "why_tests_cant": "needs a flush at the right moment", "anchors": ["src/lightspeed/base/actions/msgQueue.cpp: MsgQueue::finish, wtFlush"]}
{"id": "C339", "title": "At rest length() is the number of waiting messages", "statement": "When no call is in progress and the worker is idle, length() is the number of waiting messages and isRunning() says whether there are any.", "quantifier": "all interleavings", "why_tests_cant": "the set of interleavings is infinite", "anchors": ["src/lightspeed/base/actions/msgQueue.cpp: MsgQueue::length, isRunning, empty"]}
{"id": "C340", "title": "length() and isRunning() do not run ahead of the queue", "statement": "length() is never greater than the number of posted messages, and isRunning() is true while a message that was posted waits.", "quantifier": "all interleavings", "why_tests_cant": "races need not show in tests", "anchors": ["src/lightspeed/base/actions/msgQueue.cpp: MsgQueue::postMessage, pumpMessage, length, isRunning"]}
{"id": "C341", "title": "A message that waits can be posted again without harm", "statement": "Posting a message that already waits is ignored, as the test of its link pointer wants.", "quantifier": "all queues and messages", "why_tests_cant": "depends on the position of the message", "anchors": ["src/lightspeed/base/actions/msgQueue.cpp: MsgQueue::postMessage, prepareQueue"]}
{"id": "C342", "title": "The old scheduler runs every message once", "statement": "The messages that were run together with those that wait are exactly the posted ones, each once; the sort of new messages always ends.", "quantifier": "all interleavings of posts (plain messages, priority messages, events), the clock and the worker; events less than 2^63 time units away", "why_tests_cant": "the set of interleavings is infinite", "anchors": ["src/lightspeed/base/actions/schedulerOld.cpp: OldScheduler::prepareQueue, sortList, mergeSort, pumpMessage"]}
{"id": "C343", "title": "The old scheduler runs no event before its time", "statement": "An event is run only when the clock shows at least its time.", "quantifier": "the same interleavings", "why_tests_cant": "the set of interleavings is infinite", "anchors": ["src/lightspeed/base/actions/schedulerOld.cpp: OldScheduler::getWaitTime, pumpMessage"]}
{"id": "C344", "title": "The old scheduler sleeps exactly until the first event", "statement": "getWaitTime gives the time until the first message may be run (for ever if there is none), for all messages posted before the call.", "quantifier": "the same interleavings", "why_tests_cant": "the set of interleavings is infinite", "anchors": ["src/lightspeed/base/actions/schedulerOld.cpp: OldScheduler::getWaitTime"]}
{"id": "C345", "title": "A message that is due is not left waiting by the old scheduler", "statement": "Whenever a message that may be run waits, finitely many steps of the worker alone run a message.", "quantifier": "the same interleavings", "why_tests_cant": "liveness from every reachable state", "anchors": ["src/lightspeed/base/actions/schedulerOld.cpp: OldScheduler::pumpMessage, getWaitTime"]}
{"id": "C346", "title": "The old scheduler runs events by time", "statement": "If all messages are events, they are run by time, those with equal times in the order of posting; if none is an event, in the order of posting.", "quantifier": "all interleavings of posts of one kind, the clock and the worker", "why_tests_cant": "the set of interleavings is infinite", "anchors": ["src/lightspeed/base/actions/schedulerOld.cpp: OldScheduler::sortList, mergeSort, compareMsg"]}
{"id": "C347", "title": "Due events are run by time among plain messages", "statement": "Of two waiting events the one with the earlier time is run first, also if plain messages are posted too.", "quantifier": "all interleavings of posts, the clock and the worker", "why_tests_cant": "needs a plain message between the events", "anchors": ["src/lightspeed/base/actions/schedulerOld.cpp: OldScheduler::prepareQueue, mergeSort"]}
{"id": "C348", "title": "Priority messages go first in the old scheduler", "statement": "A waiting priority message is run before ordinary messages and events.", "quantifier": "all interleavings of posts, the clock and the worker", "why_tests_cant": "needs an overdue event", "anchors": ["src/lightspeed/base/actions/schedulerOld.cpp: OldScheduler::prepareQueue, mergeSort"]}
{"id": "C349", "title": "A reference to a string of a pool stays valid", "statement": "A reference given by the string pool reads back the string that was added, whatever is added later and however the pool moves, until it is released or the pool is cleared.", "quantifier": "all histories of add, complete writes, release, freeExtra and clear, all allocators, less than 2^32 characters", "why_tests_cant": "all histories and all choices of the allocator", "anchors": ["src/lightspeed/base/containers/stringpool.tcc: StringPool::add, release, freeExtra, clear, WriteIterator::finish"]}
{"id": "C350", "title": "Strings of a character pool are closed by a zero", "statement": "The character behind every string copied to a pool of characters is zero.", "quantifier": "all histories, all allocators, less than 2^32 characters", "why_tests_cant": "all histories", "anchors": ["src/lightspeed/base/containers/stringpool.tcc: StringPool::add, WriteIterator::finish"]}
{"id": "C351", "title": "fromMark joins what was added since the mark (pools without closing zeros)", "statement": "In a pool without closing zeros fromMark(mark) gives the concatenation of the strings added since mark().", "quantifier": "all histories, less than 2^32 items", "why_tests_cant": "all histories", "anchors": ["src/lightspeed/base/containers/stringpool.tcc: StringPool::mark, fromMark, add"]}
{"id": "C352", "title": "fromMark joins what was added since the mark (character pools)", "statement": "Text loaded by parts with add() is joined by fromMark(), as documented, also in a pool of characters.", "quantifier": "all pools and strings", "why_tests_cant": "depends on the character type", "anchors": ["src/lightspeed/base/containers/stringpool.tcc: StringPool::mark, fromMark, add"]}
{"id": "C353", "title": "A string added by an iterator is the string", "statement": "add(IIterator &) gives a reference to exactly the characters of the iterator.", "quantifier": "all pools and iterators", "why_tests_cant": "comparison by C functions hides it", "anchors": ["src/lightspeed/base/containers/stringpool.tcc: StringPool::add(IIterator<T,X>&)"]}
{"id": "C354", "title": "References can be used while a string is being written", "statement": "References to strings of the pool can be read while another string is written by a WriteIterator.", "quantifier": "all histories, all allocators", "why_tests_cant": "shows only if the block moves and the old block is reused", "anchors": ["src/lightspeed/base/containers/stringpool.tcc: StringPool::WriteIterator::write, finish"]}
{"id": "C355", "title": "A full pool refuses strings", "statement": "A string that does not fit to the documented limit of 2^32 characters is refused.", "quantifier": "all pools and strings", "why_tests_cant": "needs more than 4 GB", "anchors": ["src/lightspeed/base/containers/stringpool.tcc: StringPool::add; src/lightspeed/base/containers/stringpool.h: StringPoolStrRef"]}
{"id": "C356", "title": "A pool allocator gives different blocks of sufficient size", "statement": "Whatever is allocated from and returned to a PoolAlloc, no freed memory is touched, blocks in use are all different, and each has room for the requested size.", "quantifier": "all histories of alloc, dealloc, freeExtra and release, all sizes, any failing allocation of the system", "why_tests_cant": "all histories", "anchors": ["src/lightspeed/base/memory/poolalloc.h: PoolAlloc::alloc, dealloc, freeExtra, release"]}
{"id": "C357", "title": "A released pool returns all memory", "statement": "When release() was called and all blocks are returned, the pool keeps no memory of the system (if the system did not fail).", "quantifier": "all histories without a failed system allocation", "why_tests_cant": "all orders of the last dealloc and release", "anchors": ["src/lightspeed/base/memory/poolalloc.h: PoolAlloc::dealloc, release"]}
{"id": "C358", "title": "A released pool returns all memory after a failed allocation", "statement": "The same after an allocation that threw an exception.", "quantifier": "all histories", "why_tests_cant": "needs a failing system allocation", "anchors": ["src/lightspeed/base/memory/poolalloc.h: PoolAlloc::alloc, release"]}
{"id": "C359", "title": "A freed block is used again", "statement": "The block freed last is given to the next request that is not larger, without asking the system.", "quantifier": "all histories before release(), all sizes", "why_tests_cant": "all histories", "anchors": ["src/lightspeed/base/memory/poolalloc.h: PoolAlloc::alloc, dealloc"]}
{"id": "C360", "title": "MultiPoolAlloc returns each block to its pool", "statement": "Whatever is allocated from and returned to a MultiPoolAlloc, each block returns to the pool it came from, blocks in use are different, and each has room for the requested size.", "quantifier": "all histories of alloc and dealloc, all sizes", "why_tests_cant": "all sizes and histories", "anchors": ["src/lightspeed/base/memory/poolalloc.h: MultiPoolAlloc::alloc, dealloc, getOwner"]}
{"id": "C361", "title": "An array with SmallAlloc is a list", "statement": "Two AutoArrays with SmallAlloc hold what two lists would hold under add, trunc, reserve, freeExtra and swap, without undefined behaviour; exceptions are thrown only when the system has no memory, and change nothing.", "quantifier": "all reserved counts, all histories, any failing allocation of the system", "why_tests_cant": "all histories", "anchors": ["src/lightspeed/base/memory/smallAlloc.h: SmallAlloc::AllocatedMemory", "src/lightspeed/base/containers/autoArray.tcc: AutoArrayT::addExtra, freeExtra, swap"]}
{"id": "C362", "title": "An array with SmallAlloc frees each block once", "statement": "After such arrays are destroyed no block is left, and none was freed twice.", "quantifier": "all reserved counts, all histories", "why_tests_cant": "all histories", "anchors": ["src/lightspeed/base/memory/smallAlloc.h: SmallAlloc::AllocatedMemory", "src/lightspeed/base/containers/autoArray.tcc: AutoArrayT::addExtra, freeExtra, swap"]}
{"id": "C363", "title": "SmallAlloc does not use the heap for few items", "statement": "An item that fits to the reserved count is added without any allocation.", "quantifier": "all reserved counts, all histories", "why_tests_cant": "all histories", "anchors": ["src/lightspeed/base/memory/smallAlloc.h: SmallAlloc::AllocatedMemory", "src/lightspeed/base/containers/autoArray.tcc: AutoArrayT::addExtra, freeExtra, swap"]}
{"id": "C364", "title": "SmallAlloc returns memory to the allocator it came from", "statement": "An array with SmallAlloc over a runtime allocator returns every block to that allocator.", "quantifier": "all reserved counts, all histories", "why_tests_cant": "harmless if the runtime allocator is built over operator new", "anchors": ["src/lightspeed/base/memory/smallAlloc.h: SmallAlloc::AllocatedMemory::move"]}
{"id": "C365", "title": "find of an array set tells whether an item is there", "statement": "find() gives an item if and only if an equal one is in the set, and getPos() is the position of an equal item, or the place in the ordered part.", "quantifier": "all strict weak orderings, all histories of add, insert, erase, trunc, clear, makeOrdered, all start data", "why_tests_cant": "all histories", "anchors": ["src/lightspeed/base/containers/arraySet.tcc: ArraySet::find, searchOrdered, searchUnordered, insert, erase, trunc, checkOrder"]}
{"id": "C366", "title": "makeOrdered sorts", "statement": "makeOrdered() puts the same items in ascending order, and isOrdered() holds then.", "quantifier": "all strict weak orderings, all histories", "why_tests_cant": "all histories, two algorithms by the count of unordered items", "anchors": ["src/lightspeed/base/containers/arraySet.tcc: ArraySet::makeOrdered"]}
{"id": "C367", "title": "find points to the found item", "statement": "The pointer given by find() points to an item equal to the object.", "quantifier": "all histories", "why_tests_cant": "shows only for items behind the ordered part", "anchors": ["src/lightspeed/base/containers/arraySet.tcc: ArraySet::find"]}
{"id": "C368", "title": "Duplicates are discarded by ordering", "statement": "After makeOrdered() all items are different, unless duplicates are enabled, as documented.", "quantifier": "all histories", "why_tests_cant": "needs data with duplicates", "anchors": ["src/lightspeed/base/containers/arraySet.tcc: ArraySet::makeOrdered, removeDuplicatesAfterOrder"]}
{"id": "C369", "title": "find works after more items are inserted", "statement": "find() finds any item of the set after insert(at, item, count).", "quantifier": "all histories", "why_tests_cant": "shows only for an insert behind the ordered part", "anchors": ["src/lightspeed/base/containers/arraySet.tcc: ArraySet::insert(natural, const T &, natural)"]}
{"id": "C370", "title": "erase(at, count) removes count items", "statement": "erase(at, count) removes count items.", "quantifier": "all sets", "why_tests_cant": "all sizes", "anchors": ["src/lightspeed/base/containers/arraySet.tcc: ArraySet::erase(natural, natural)"]}
{"id": "C371", "title": "detectOrder finds ordered data", "statement": "A set made with detectOrder of ordered data is ordered, also if there are no data.", "quantifier": "all data", "why_tests_cant": "depends on data", "anchors": ["src/lightspeed/base/containers/arraySet.tcc: ArraySet::checkOrder, orderControl"]}
{"id": "C372", "title": "Operations of an array set change the items as those of an array", "statement": "add, insert, erase, trunc, clear and makeOrdered of an array set keep, add and remove the items as the same operations on a list, and throw for a wrong position.", "quantifier": "all strict weak orderings, all histories", "why_tests_cant": "all histories", "anchors": ["src/lightspeed/base/containers/arraySet.tcc: ArraySet::insert, erase, trunc, clear, makeOrdered"]}
{"id": "C373", "title": "A list with iterators behaves as a sequence", "statement": "Adding, inserting at iterators, erasing, clearing and walking give the results of a sequence with positions; the items are found in this order in both directions and size() is their number, as long as an iterator whose item was removed is only read or dropped.", "quantifier": "all histories of list and iterator calls with any number of iterators", "why_tests_cant": "all histories and all positions of iterators", "anchors": ["src/lightspeed/base/containers/list.h: List::addFront, addBack, insertAfter, insertBefore, erase, clear, size, Iterator, getFwIter, getBkIter"]}
{"id": "C374", "title": "An iterator keeps its item", "statement": "The item at an iterator can be read with its value even if it was removed from the list by another iterator or by clear().", "quantifier": "all histories", "why_tests_cant": "all histories", "anchors": ["src/lightspeed/base/containers/list.h: List::erase, clear, Iterator::peek"]}
{"id": "C375", "title": "A list frees items exactly when they are not needed", "statement": "The items in memory are those in the list and those at iterators; a cleared list without iterators leaks nothing.", "quantifier": "all histories", "why_tests_cant": "all histories", "anchors": ["src/lightspeed/base/containers/list.h: List::removeItem, clear, Iterator"]}
{"id": "C376", "title": "Erase at a removed item is harmless", "statement": "erase() by an iterator whose item was removed meanwhile does not damage the list.", "quantifier": "all histories", "why_tests_cant": "needs two iterators at one item", "anchors": ["src/lightspeed/base/containers/list.h: List::erase, removeItem"]}
{"id": "C377", "title": "Walking ends", "statement": "An iterator reaches the end of the list, also if its item is removed by another iterator.", "quantifier": "all histories", "why_tests_cant": "needs two iterators at one item", "anchors": ["src/lightspeed/base/containers/list.h: List::Iterator::getNext, hasItems"]}
{"id": "C378", "title": "An inserted item is in the list", "statement": "An item inserted at an iterator is in the list.", "quantifier": "all histories", "why_tests_cant": "needs two iterators at one item", "anchors": ["src/lightspeed/base/containers/list.h: List::insertAfter, insertBefore"]}
{"id": "C379", "title": "Locking a pair gets both locks or none", "statement": "lock(), tryLock() and lock(timeout) of a pair end with both locks got, or, if they return false or throw, with none of them held; lock() does not return without the locks.", "quantifier": "all numbers of threads and locks, all schedules, exceptions and timeouts at any operation", "why_tests_cant": "depends on the schedule and on failures", "anchors": ["src/lightspeed/base/sync/lockPair.h: LockPair::lock, tryLock"]}
{"id": "C380", "title": "Two threads never hold a common lock by pairs", "statement": "Between the end of a successful call and unlock() a thread is the only owner of both locks; after unlock() it owns none, also if the unlock of one lock throws; no lock of another thread is unlocked.", "quantifier": "all numbers of threads and locks, all schedules", "why_tests_cant": "depends on the schedule", "anchors": ["src/lightspeed/base/sync/lockPair.h: LockPair::lock, tryLock, unlock"]}
{"id": "C381", "title": "Pairs of locks do not deadlock", "statement": "Whatever order of locks the pairs have, from every state the threads can go on so that every call ends.", "quantifier": "all numbers of threads and locks, all schedules", "why_tests_cant": "depends on the schedule", "anchors": ["src/lightspeed/base/sync/lockPair.h: LockPair::lock"]}
{"id": "C382", "title": "Pairs throw only exceptions of the locks", "statement": "A call ends with an exception only if an operation of a lock threw.", "quantifier": "all schedules", "why_tests_cant": "depends on the schedule", "anchors": ["src/lightspeed/base/sync/lockPair.h: LockPair::lock, tryLock"]}
{"id": "C383", "title": "tryLock of a pair does not wait", "statement": "A thread in tryLock() is never blocked.", "quantifier": "all schedules", "why_tests_cant": "depends on the schedule", "anchors": ["src/lightspeed/base/sync/lockPair.h: LockPair::tryLock"]}
{"id": "C384", "title": "lock of a pair ends if all threads run", "statement": "lock() of a pair ends if every thread runs again and again and every owner unlocks.", "quantifier": "all fair schedules", "why_tests_cant": "infinite schedules", "anchors": ["src/lightspeed/base/sync/lockPair.h: LockPair::lock"]}
{"id": "C385", "title": "A pair may have the same lock twice", "statement": "lock() of a pair made of one lock ends.", "quantifier": "all pairs", "why_tests_cant": "a test would never end", "anchors": ["src/lightspeed/base/sync/lockPair.h: LockPair::lock"]}
{"id": "C386", "title": "The distributor works as a queue of messages", "statement": "With one stage, the calls of listeners, their order and the results of add, priorityAdd, remove, removeAll, isAdded, size, send, finish, stop are those of a queue of messages where each message has the list of listeners that have still to get it; no destroyed memory is used. Excluded: adding after the last of several listeners was removed (C393).", "quantifier": "all behaviours of the program and of the listeners, any nesting", "why_tests_cant": "listeners may call any method in any order", "anchors": ["src/lightspeed/base/actions/distrubutor.tcc: Distributor::add, priorityAdd, remove, removeAll, isAdded, size, send, finish, stop"]}
{"id": "C387", "title": "Every listener gets every message in order", "statement": "If the listeners do not change and nothing is cancelled, each listener gets each message once for each time it was added, in the order of sending, also for messages sent by listeners, before the outermost send returns.", "quantifier": "all numbers of listeners, all nestings of sends", "why_tests_cant": "depends on the behaviour of listeners", "anchors": ["src/lightspeed/base/actions/distrubutor.tcc: Distributor::send"]}
{"id": "C388", "title": "send returns", "statement": "At any moment, if the listeners just return, every send in progress returns and no message is left.", "quantifier": "all histories", "why_tests_cant": "all histories", "anchors": ["src/lightspeed/base/actions/distrubutor.tcc: Distributor::send, finish"]}
{"id": "C389", "title": "No message comes twice or out of order", "statement": "Also if listeners are added and removed and messages are cancelled during sending, a listener added once gets no message twice and gets them in the order of sending.", "quantifier": "all histories with one stage", "why_tests_cant": "depends on the behaviour of listeners", "anchors": ["src/lightspeed/base/actions/distrubutor.tcc: Distributor::send, add, remove, stop"]}
{"id": "C390", "title": "A removed listener is not called", "statement": "A listener whose isAdded is 0 is not called until it is added again, also if it was removed while messages are being sent.", "quantifier": "all histories with one stage", "why_tests_cant": "removal may come at any moment of a send", "anchors": ["src/lightspeed/base/actions/distrubutor.tcc: Distributor::remove, isAdded, send"]}
{"id": "C391", "title": "stop and exceptions cancel the messages", "statement": "After stop(), and after an exception of a listener went out of send, no listener gets a message sent before.", "quantifier": "all histories with one stage", "why_tests_cant": "any nesting of sends", "anchors": ["src/lightspeed/base/actions/distrubutor.tcc: Distributor::stop, send"]}
{"id": "C392", "title": "The sender is skipped", "statement": "A listener named as the sender of a message does not get this message.", "quantifier": "all messages", "why_tests_cant": "documented for all uses", "anchors": ["src/lightspeed/base/actions/distrubutor.tcc: Distributor::send"]}
{"id": "C393", "title": "Listeners may be added after removal", "statement": "Any sequence of additions and removals of listeners that were added is safe.", "quantifier": "all sequences", "why_tests_cant": "depends on the position of the removed listener", "anchors": ["src/lightspeed/base/actions/distrubutor.tcc: Distributor::add, remove"]}
{"id": "C394", "title": "Stages are independent", "statement": "With more stages, any sequence of additions and sends, also by listeners, is safe.", "quantifier": "all sequences", "why_tests_cant": "depends on the nesting", "anchors": ["src/lightspeed/base/actions/distrubutor.tcc: Distributor::send"]}
{"id": "C395", "title": "An exception stops messages of all stages", "statement": "After an exception of a listener no message sent before in any stage is delivered.", "quantifier": "all sequences", "why_tests_cant": "depends on the nesting", "anchors": ["src/lightspeed/base/actions/distrubutor.tcc: Distributor::send"]}
{"id": "C396", "title": "A listener may remove others during the exit message", "statement": "A listener called with the exit message may remove other listeners.", "quantifier": "all sequences", "why_tests_cant": "depends on the removed listener", "anchors": ["src/lightspeed/base/actions/distrubutor.tcc: Distributor::sendExitMsg, remove"]}
{"id": "C397", "title": "A named value is found by its name", "statement": "A name of the table gives a value defined with this name, whatever the order and number of definitions; for any other name find() returns false and operator[] throws.", "quantifier": "all tables, all names", "why_tests_cant": "any order and number of definitions", "anchors": ["src/lightspeed/base/namedEnum.h: NamedEnum::find, operator[]"]}
{"id": "C398", "title": "The name of a value is found", "statement": "A value of the table gives a name defined with it; any other value gives the empty string.", "quantifier": "all tables, all values", "why_tests_cant": "any order and number of definitions", "anchors": ["src/lightspeed/base/namedEnum.h: NamedEnum::operator[]"]}
{"id": "C399", "title": "Lookups of names and values are inverse", "statement": "If names and values do not repeat, the value of the name of a value is this value and the name of the value of a name is this name.", "quantifier": "all tables without repetitions", "why_tests_cant": "any order and number of definitions", "anchors": ["src/lightspeed/base/namedEnum.h: NamedEnum::operator[]"]}
{"id": "C400", "title": "List of names", "statement": "toString() gives all names in the order of definition with the separator between them.", "quantifier": "all tables and separators", "why_tests_cant": "all tables", "anchors": ["src/lightspeed/base/namedEnum.h: NamedEnum::toString"]}
{"id": "C401", "title": "Characters read by strtod", "statement": "Of a text that starts with a decimal numeral (blanks, sign, digits with at most one point, exponent) followed by something that does not continue it, strtod reads exactly the numeral; it throws if and only if the exponent of ten left after the digits behind the eighteenth are dropped is above 511 in magnitude.", "quantifier": "all numerals of up to 10^9 digits and exponents below 10^9, all following texts", "why_tests_cant": "unbounded texts", "anchors": ["src/lightspeed/base/text/strtodouble.cpp: strtod"]}
{"id": "C402", "title": "Integers are read exactly", "statement": "A numeral of at most 18 digits whose digits make a number below 2^53, and whose value is an integer below 2^53 (also with a point or an exponent), is read as exactly this number with its sign.", "quantifier": "all such numerals with an exponent of ten from -15 to 15, all following texts", "why_tests_cant": "2^53 values and many writings of each", "anchors": ["src/lightspeed/base/text/strtodouble.cpp: strtod"]}
{"id": "C403", "title": "Decimal fractions are correctly rounded", "statement": "A numeral of at most 18 digits whose digits make a number below 2^53 and whose exponent of ten is from -22 to 22 is read as a double with an error of at most half a unit of its last place.", "quantifier": "all such numerals, all following texts", "why_tests_cant": "2^53 mantissas, all exponents and writings", "anchors": ["src/lightspeed/base/text/strtodouble.cpp: strtod"]}
{"id": "C404", "title": "A text that is no number", "statement": "A text with no digit behind the blanks, the sign and a possible point gives zero, and no character is read.", "quantifier": "all such texts", "why_tests_cant": "all texts", "anchors": ["src/lightspeed/base/text/strtodouble.cpp: strtod"]}
{"id": "C405", "title": "Zero is read as zero", "statement": "A numeral with a zero mantissa is read as zero.", "quantifier": "all numerals", "why_tests_cant": "rare exponents", "anchors": ["src/lightspeed/base/text/strtodouble.cpp: strtod"]}
{"id": "C406", "title": "Small values are not lost", "statement": "A numeral whose value is a normal double is not read as zero.", "quantifier": "all numerals", "why_tests_cant": "rare exponents", "anchors": ["src/lightspeed/base/text/strtodouble.cpp: strtod"]}
{"id": "C407", "title": "Only insignificant digits are dropped", "statement": "The digits that are dropped do not change the value by more than the precision of a double.", "quantifier": "all numerals", "why_tests_cant": "long fractions", "anchors": ["src/lightspeed/base/text/strtodouble.cpp: strtod"]}
{"id": "C408", "title": "Incomplete exponents are not read", "statement": "The characters read are a numeral; a letter e that is not followed by an exponent is not read.", "quantifier": "all texts", "why_tests_cant": "incomplete texts", "anchors": ["src/lightspeed/base/text/strtodouble.cpp: strtod"]}
{"id": "C409", "title": "Any text is safe to read", "statement": "Reading of any text either succeeds or throws.", "quantifier": "all texts", "why_tests_cant": "long exponents", "anchors": ["src/lightspeed/base/text/strtodouble.cpp: strtod"]}
{"id": "C410", "title": "Only values out of range are refused", "statement": "strtod throws only for values out of the range of double.", "quantifier": "all numerals", "why_tests_cant": "rare exponents", "anchors": ["src/lightspeed/base/text/strtodouble.cpp: strtod"]}
{"id": "C411", "title": "Named XML entities are decoded", "statement": "An attribute in which some characters, at least all ampersands, are written as the named entities lt, gt, amp, apos and quot is read as the original text.", "quantifier": "all texts and all choices of written characters", "why_tests_cant": "unbounded texts", "anchors": ["src/lightspeed/utils/xmlparser.cpp: XMLIteratorT::fixEntities, loadEntity"]}
{"id": "C412", "title": "Escaping and reading of XML attributes is a round trip", "statement": "A text in which all five special characters are escaped is read back unchanged.", "quantifier": "all texts", "why_tests_cant": "unbounded texts", "anchors": ["src/lightspeed/utils/xmlparser.cpp: XMLIteratorT::fixEntities, loadEntity"]}
{"id": "C413", "title": "Any XML attribute is read", "statement": "Decoding of entities ends for every text, and a text without semicolons is not changed.", "quantifier": "all texts", "why_tests_cant": "unbounded texts", "anchors": ["src/lightspeed/utils/xmlparser.cpp: XMLIteratorT::fixEntities, loadEntity"]}
{"id": "C414", "title": "Numeric XML references are decoded", "statement": "A reference of a character by its number gives this character.", "quantifier": "all numbers", "why_tests_cant": "all numbers", "anchors": ["src/lightspeed/utils/xmlparser.cpp: XMLIteratorT::fixEntities, loadEntity"]}
{"id": "C415", "title": "Text that is not an entity is kept", "statement": "An ampersand that does not start a known entity, and the text behind it, are kept.", "quantifier": "all texts", "why_tests_cant": "all texts", "anchors": ["src/lightspeed/utils/xmlparser.cpp: XMLIteratorT::fixEntities, loadEntity"]}
{"id": "C416", "title": "Calls of a job are atomic", "statement": "Calls of execute, run, sleep, wakeUp and stop from any threads change the state of the job as if each was done at once in the order in which they end.", "quantifier": "all schedules of any number of threads", "why_tests_cant": "interleavings", "anchors": ["src/lightspeed/base/actions/job.cpp: Job"]}
{"id": "C417", "title": "An event during the run of a job is not lost", "statement": "If wakeUp comes while the job runs, the next sleep does not put the job to sleep but makes it ready.", "quantifier": "all schedules", "why_tests_cant": "interleavings", "anchors": ["src/lightspeed/base/actions/job.cpp: Job"]}
{"id": "C418", "title": "A ready job is taken once", "statement": "Between two runners that took the job to run it, the job was made ready again by execute, wakeUp or sleep.", "quantifier": "all schedules", "why_tests_cant": "interleavings", "anchors": ["src/lightspeed/base/actions/job.cpp: Job"]}
{"id": "C419", "title": "A started or woken job runs its action", "statement": "execute of a job that is not running and wakeUp of a sleeping job call the action.", "quantifier": "all jobs", "why_tests_cant": "all actions", "anchors": ["src/lightspeed/base/actions/job.cpp: Job"]}
{"id": "C420", "title": "run of a job that is not ready returns", "statement": "run() of a job that is not ready does nothing.", "quantifier": "all jobs", "why_tests_cant": "divergence", "anchors": ["src/lightspeed/base/actions/job.cpp: Job"]}
{"id": "C421", "title": "The result of waiting for a notifier is right", "statement": "wait of a notifier gives true only if some call of wakeUp was not over before the last reset; it gives true whenever a call of wakeUp began and ended after the last reset; it gives false only if its timeout came during the call or, when asked for, the finish flag was set.", "quantifier": "all schedules of the owner and any number of other threads that notify, wake up or finish it", "why_tests_cant": "interleavings", "anchors": ["src/lightspeed/mt/notifier.h: Notifier", "src/lightspeed/mt/notifier.cpp: Notifier::wait", "src/lightspeed/mt/linux/threadSleeper.cpp: ThreadSleeper"]}
{"id": "C422", "title": "No notification of a waiting thread is lost", "statement": "In every state in which a thread waits for a notifier and a call of wakeUp of the notifier has ended since the last reset, the thread comes to the end of wait with true by its own steps; a wait that looks at the finish flag ends in the same way after finish().", "quantifier": "all schedules", "why_tests_cant": "interleavings", "anchors": ["src/lightspeed/mt/notifier.h: Notifier", "src/lightspeed/mt/notifier.cpp: Notifier::wait", "src/lightspeed/mt/linux/threadSleeper.cpp: ThreadSleeper"]}
{"id": "C423", "title": "A notifier may be destroyed once its signal is seen", "statement": "If there is one notification for each reset, and the owner destroys or resets the notifier only after it saw the signal, then no running call of wakeUp uses the notifier after its destruction.", "quantifier": "all schedules that follow these rules", "why_tests_cant": "interleavings", "anchors": ["src/lightspeed/mt/notifier.h: Notifier", "src/lightspeed/mt/notifier.cpp: Notifier::wait", "src/lightspeed/mt/linux/threadSleeper.cpp: ThreadSleeper"]}
{"id": "C424", "title": "The reason of a notification is seen with the signal", "statement": "Under the same rules, the owner that has seen the signal finds in the notifier the reason given with the last notification.", "quantifier": "all schedules that follow these rules", "why_tests_cant": "interleavings", "anchors": ["src/lightspeed/mt/notifier.h: Notifier", "src/lightspeed/mt/notifier.cpp: Notifier::wait", "src/lightspeed/mt/linux/threadSleeper.cpp: ThreadSleeper"]}
{"id": "C425", "title": "A wake-up between two sleeps is remembered", "statement": "If some thread called wakeUp or finish of a thread after its last sleep ended, and the call is over, the next sleep does not wait and reports an interruption.", "quantifier": "all schedules", "why_tests_cant": "interleavings", "anchors": ["src/lightspeed/mt/linux/thread.cpp: Thread::impSleep, deepSleep, wakeUp, finish, isFinishing", "src/lightspeed/mt/linux/threadSleeper.cpp: ThreadSleeper"]}
{"id": "C426", "title": "Sleeping ends with the timeout as reported", "statement": "sleep reports its timeout only if it came during the call; deepSleep ends only with its timeout, whatever wake-ups come.", "quantifier": "all schedules", "why_tests_cant": "interleavings", "anchors": ["src/lightspeed/mt/linux/thread.cpp: Thread::impSleep, deepSleep, wakeUp, finish, isFinishing", "src/lightspeed/mt/linux/threadSleeper.cpp: ThreadSleeper"]}
{"id": "C427", "title": "An interrupted sleep stores the reason of the wake-up", "statement": "sleep(timeout, reason) stores the reason of the interruption to the variable when it is interrupted.", "quantifier": "all schedules", "why_tests_cant": "interleavings", "anchors": ["src/lightspeed/mt/linux/thread.cpp: Thread::impSleep, deepSleep, wakeUp, finish, isFinishing", "src/lightspeed/mt/linux/threadSleeper.cpp: ThreadSleeper"]}
{"id": "C428", "title": "deepSleep keeps the wake-up for the next sleep", "statement": "A wake-up that comes during deepSleep is not forgotten: the next sleep does not wait.", "quantifier": "all schedules", "why_tests_cant": "interleavings", "anchors": ["src/lightspeed/mt/linux/thread.cpp: Thread::impSleep, deepSleep, wakeUp, finish, isFinishing", "src/lightspeed/mt/linux/threadSleeper.cpp: ThreadSleeper"]}
{"id": "C429", "title": "isFinishing tells about the asked thread", "statement": "isFinishing() of a thread gives the finish flag of that thread whichever thread asks.", "quantifier": "all threads", "why_tests_cant": "all threads", "anchors": ["src/lightspeed/mt/linux/thread.cpp: Thread::impSleep, deepSleep, wakeUp, finish, isFinishing", "src/lightspeed/mt/linux/threadSleeper.cpp: ThreadSleeper"]}
{"id": "C430", "title": "Event journal round trip", "statement": "Every sequence of events (types below 0xFFFF, data up to 65535 blocks of 8 bytes, times that do not go back and are less than 2^32 seconds apart) that is written to a new journal is delivered by the scan at the next start: each event once, in order, with its time and type, and with its data filled up to a multiple of 8 bytes. The scan ends with the checksum and time of the writer.", "quantifier": "all sequences of events and all padding bytes", "why_tests_cant": "the set of event sequences is not finite, and the checksum state depends on the whole history", "anchors": ["src/lightspeed/utils/eventdb.cpp: EventLog::writeBlock, EventLog::rescan, EventLog::parseBlock", "src/lightspeed/utils/eventdb.h: EventLog"]}
{"id": "C431", "title": "Event journal survives a crash at every byte", "statement": "When the file is cut at any byte, the scan delivers exactly the events that were written completely before that byte. When it ends without an error, new events can be appended, and a later scan delivers the old and the new ones.", "quantifier": "all sequences of events, all crash points, all later sequences of events", "why_tests_cant": "every byte of every possible file is a crash point", "anchors": ["src/lightspeed/utils/eventdb.cpp: EventLog::writeBlock, EventLog::rescan, EventLog::parseBlock", "src/lightspeed/utils/eventdb.h: EventLog"]}
{"id": "C432", "title": "A changed data byte is detected", "statement": "When one byte of the data (or padding) of an event in the file is changed, and there is an event behind it, the scan fails with a checksum error right after the changed event; the events before it are delivered unchanged.", "quantifier": "all sequences of events, all positions in the data of an event, all wrong values", "why_tests_cant": "all positions and values in all files", "anchors": ["src/lightspeed/utils/eventdb.cpp: EventLog::parseBlock, updateChecksum", "src/lightspeed/utils/eventdb.h: EventLog"]}
{"id": "C433", "title": "The offset returned by sendUpdate is the place of the event", "statement": "The offset that is returned when an event is sent is the offset under which a later scan delivers this event; the listeners get its time, type and data; when the pause before the event is at most 65535 seconds they also get this offset.", "quantifier": "all histories and events", "why_tests_cant": "depends on the history of the file", "anchors": ["src/lightspeed/utils/eventdb.cpp: EventLog::sendUpdate_trn", "src/lightspeed/utils/eventdb.h: EventLog"]}
{"id": "C434", "title": "Listeners get the offset of the event", "statement": "A listener gets, with each new event, the offset under which the event can be found in the file.", "quantifier": "all histories and events", "why_tests_cant": "depends on the pause between two events", "anchors": ["src/lightspeed/utils/eventdb.cpp: EventLog::sendUpdate_trn", "src/lightspeed/utils/eventdb.h: EventLog"]}
{"id": "C435", "title": "readRecord reads the data of an event", "statement": "readRecord with the offset and type of an event stores the data of the event to a buffer that is large enough, and returns the size of the data.", "quantifier": "all histories and events", "why_tests_cant": "all sizes of data", "anchors": ["src/lightspeed/utils/eventdb.cpp: EventLog::readRecord", "src/lightspeed/utils/eventdb.h: EventLog"]}
{"id": "C436", "title": "An event with a time that goes back is refused", "statement": "When the timestamp of a transaction is less than the timestamp of the previous event, an exception is thrown when the event is sent.", "quantifier": "all histories and events", "why_tests_cant": "all pairs of times", "anchors": ["src/lightspeed/utils/eventdb.cpp: EventLog::Transaction::Transaction, EventLog::writeBlock", "src/lightspeed/utils/eventdb.h: EventLog"]}
{"id": "C437", "title": "A listener added with synchronisation gets every event once", "statement": "A listener that is added while other events are appended gets all events, each once and in order, with type and data: those before the call, those appended during its unlocked scans and those found under the lock.", "quantifier": "all histories, and all numbers of events appended between the scans", "why_tests_cant": "needs events appended at each moment between the scans", "anchors": ["src/lightspeed/utils/eventdb.cpp: EventLog::addListenerAndSync", "src/lightspeed/utils/eventdb.h: EventLog"]}
{"id": "C438", "title": "A listener added with synchronisation gets the times of the events", "statement": "A listener that is added with synchronisation gets the events with the times at which they were sent.", "quantifier": "all histories", "why_tests_cant": "the value of an uninitialised variable cannot be chosen by a test", "anchors": ["src/lightspeed/utils/eventdb.cpp: EventLog::addListenerAndSync", "src/lightspeed/utils/eventdb.h: EventLog"]}
{"id": "C439", "title": "A rotated log delivers the same events", "statement": "A log that is read as a rotated log delivers the same events as when it was the active file.", "quantifier": "all logs", "why_tests_cant": "all logs", "anchors": ["src/lightspeed/utils/eventdb.cpp: EventLog::rescanOtherLog", "src/lightspeed/utils/eventdb.h: EventLog"]}
{"id": "C440", "title": "Scan of a part of the journal", "statement": "A scan of a range that begins where an event was appended (with the time of the event before it) and ends where a later event was appended delivers exactly the events between, with their times, whatever follows in the file.", "quantifier": "all histories and all ranges", "why_tests_cant": "all ranges of all files", "anchors": ["src/lightspeed/utils/eventdb.cpp: EventLog::rescan(IUpdateListener&, FileOffset, FileOffset, time_t)", "src/lightspeed/utils/eventdb.h: EventLog"]}
{"id": "C441", "title": "Cells of an event log survive reopening", "statement": "After any sequence of accepted updates of cells, opening the cell file again gives the same table of cells as was in memory; updates of cells with numbers up to 10000 are accepted.", "quantifier": "all sequences of updates with any cells, types, data and times", "why_tests_cant": "the file depends on the whole history of sizes", "anchors": ["src/lightspeed/utils/eventdb.cpp: EventLog::updateStEvent_trn, EventLog::scanStEvents", "src/lightspeed/utils/eventdb.h: EventLog"]}
{"id": "C442", "title": "A scan of the cells gives the latest events", "statement": "A scan of the cells delivers, for each cell that was written, its latest event with cell, time, type and data (filled up with zeros), and it delivers nothing that was not written.", "quantifier": "all sequences of updates", "why_tests_cant": "the file depends on the whole history of sizes", "anchors": ["src/lightspeed/utils/eventdb.cpp: EventLog::updateStEvent_trn, EventLog::rescanStEvents, EventLog::loadStEvent", "src/lightspeed/utils/eventdb.h: EventLog"]}
{"id": "C443", "title": "A scan delivers each cell once", "statement": "A scan of the cells delivers at most one event for each cell.", "quantifier": "all sequences of updates", "why_tests_cant": "needs all histories", "anchors": ["src/lightspeed/utils/eventdb.cpp: EventLog::rescanStEvents, EventLog::allocCell", "src/lightspeed/utils/eventdb.h: EventLog"]}
{"id": "C444", "title": "The last event delivered for a cell is the latest", "statement": "In a scan of the cells, the last event that is delivered for a cell is its latest event.", "quantifier": "all sequences of updates", "why_tests_cant": "needs all histories", "anchors": ["src/lightspeed/utils/eventdb.cpp: EventLog::rescanStEvents, EventLog::allocCell", "src/lightspeed/utils/eventdb.h: EventLog"]}
{"id": "C445", "title": "Registered descriptors keep their data", "statement": "After any sequence of set, unset, dropAll, waiting and getNext on a LinuxFdSelect, isSet, getData and unset give for each descriptor the data of its last set, and nothing when it was not set or was unset since.", "quantifier": "all histories without wake-ups", "why_tests_cant": "removal moves the last entry to another place: all histories are needed", "anchors": ["src/lightspeed/base/linux/linuxFdSelect.cpp: LinuxFdSelect::set, LinuxFdSelect::unset, LinuxFdSelect::removeFd, LinuxFdSelect::getData", "src/lightspeed/base/linux/linuxFdSelect.h: LinuxFdSelect"]}
{"id": "C446", "title": "getNext gives a signaled registered descriptor", "statement": "getNext returns only a registered descriptor, with the data and the timeout it was set with; the events in its mask are those reported by the last wait of this call or those that are pending from before, and the descriptor has an event, a timeout, an error or an empty mask.", "quantifier": "all histories and all answers of poll", "why_tests_cant": "all answers of poll are needed", "anchors": ["src/lightspeed/base/linux/linuxFdSelect.cpp: LinuxFdSelect::getNext, LinuxFdSelect::peek, LinuxFdSelect::findSignaled", "src/lightspeed/base/linux/linuxFdSelect.h: LinuxFdSelect"]}
{"id": "C447", "title": "Each reported event is delivered once", "statement": "After a wait, calls of getNext that do not wait return exactly the descriptors that were reported, timed out or have an empty mask, each once and with the reported events; a pending event is not lost by set and unset of other descriptors.", "quantifier": "all histories and all answers of poll", "why_tests_cant": "removal moves entries and the position: all histories are needed", "anchors": ["src/lightspeed/base/linux/linuxFdSelect.cpp: LinuxFdSelect::findSignaled, LinuxFdSelect::getNext, LinuxFdSelect::removeFd", "src/lightspeed/base/linux/linuxFdSelect.h: LinuxFdSelect"]}
{"id": "C448", "title": "dropAll lets every descriptor be removed without waiting", "statement": "After dropAll, repeated getNext and unset return each registered descriptor once with its data, without waiting, and leave the set empty.", "quantifier": "all histories", "why_tests_cant": "all histories are needed", "anchors": ["src/lightspeed/base/linux/linuxFdSelect.cpp: LinuxFdSelect::dropAll, LinuxFdSelect::getNext, LinuxFdSelect::unset", "src/lightspeed/base/linux/linuxFdSelect.h: LinuxFdSelect"]}
{"id": "C449", "title": "A descriptor with an empty mask is returned without waiting", "statement": "A descriptor that is set with an empty mask is treated as timed out and returned by getNext without waiting.", "quantifier": "all histories", "why_tests_cant": "needs all histories", "anchors": ["src/lightspeed/base/linux/linuxFdSelect.cpp: LinuxFdSelect::set, LinuxFdSelect::findSignaled", "src/lightspeed/base/linux/linuxFdSelect.h: LinuxFdSelect"]}
{"id": "C450", "title": "A wake-up request interrupts getNext safely", "statement": "When wakeUp was called after enableWakeUp, getNext returns the wake-up request and touches only memory of the object.", "quantifier": "all histories with wake-ups", "why_tests_cant": "memory errors are not seen by tests", "anchors": ["src/lightspeed/base/linux/linuxFdSelect.cpp: LinuxFdSelect::getNext, LinuxFdSelect::wakeUp", "src/lightspeed/base/linux/linuxFdSelect.h: LinuxFdSelect"]}
{"id": "C451", "title": "All wake-up requests are delivered", "statement": "Each call of wakeUp is delivered with its own reason, not only the last one.", "quantifier": "all sequences of wakeUp and getNext", "why_tests_cant": "needs all histories", "anchors": ["src/lightspeed/base/linux/linuxFdSelect.cpp: LinuxFdSelect::wakeUp, LinuxFdSelect::isWakeUpRequest", "src/lightspeed/base/linux/linuxFdSelect.h: LinuxFdSelect"]}
{"id": "C452", "title": "A wake-up request does not discard other events", "statement": "When getNext returns a wake-up request, events of other descriptors that are pending stay pending.", "quantifier": "all histories with wake-ups", "why_tests_cant": "needs all histories", "anchors": ["src/lightspeed/base/linux/linuxFdSelect.cpp: LinuxFdSelect::getNext", "src/lightspeed/base/linux/linuxFdSelect.h: LinuxFdSelect"]}
{"id": "C453", "title": "Repeated requests to disable wake-ups are ignored", "statement": "enableWakeUp(false) closes the descriptors of the wake-up pipe once, also when it is called again or the object is destroyed.", "quantifier": "all histories with wake-ups", "why_tests_cant": "a double close is visible only when another thread opens a descriptor meanwhile", "anchors": ["src/lightspeed/base/linux/linuxFdSelect.cpp: LinuxFdSelect::enableWakeUp, LinuxFdSelect::~LinuxFdSelect", "src/lightspeed/base/linux/linuxFdSelect.h: LinuxFdSelect"]}
{"id": "C454", "title": "A wait ends by the nearest timeout", "statement": "For times below 2^31 milliseconds, a wait takes at most the least of the remaining times of the descriptors and the requested time, it has no limit only if all are infinite, and its end counts as the end of the requested time only when this one is the least.", "quantifier": "all lists of timeouts", "why_tests_cant": "all combinations of times", "anchors": ["src/lightspeed/base/linux/linuxFdSelect.cpp: LinuxFdSelect::doWaitPoll", "src/lightspeed/base/linux/linuxFdSelect.h: LinuxFdSelect"]}
{"id": "C455", "title": "A wait ends by the nearest timeout, all times", "statement": "A wait takes at most the least of the remaining times, for all timeouts.", "quantifier": "all lists of timeouts", "why_tests_cant": "needs waiting for weeks", "anchors": ["src/lightspeed/base/linux/linuxFdSelect.cpp: LinuxFdSelect::doWaitPoll", "src/lightspeed/base/linux/linuxFdSelect.h: LinuxFdSelect"]}
{"id": "C456", "title": "Different seeds give different sequences", "statement": "Two Rand generators created with different seeds never give the same two values at the same place of their sequences; all values have 32 bits.", "quantifier": "all pairs of seeds and all places", "why_tests_cant": "2^64 pairs of seeds", "anchors": ["src/lightspeed/base/streams/random.h: Rand::getNext, Rand::fetchNext"]}
{"id": "C457", "title": "The sequence of Rand is periodic from the beginning and never stuck", "statement": "For each seed the sequence of Rand repeats from its first value, and no value comes three times in a row.", "quantifier": "all seeds and all places of the sequence", "why_tests_cant": "the period is too long for tests", "anchors": ["src/lightspeed/base/streams/random.h: Rand::getNext, Rand::fetchNext"]}
{"id": "C458", "title": "Random natural numbers lie in their range", "statement": "Random<natural>(minimum, maximum) with minimum < maximum gives only values from minimum to maximum - 1.", "quantifier": "all ranges and all states of the generator", "why_tests_cant": "all ranges", "anchors": ["src/lightspeed/base/streams/random.h: Random<natural>::transform"]}
{"id": "C459", "title": "Random natural numbers are spread evenly", "statement": "For ranges of at most 2^32 numbers, Random<natural> can give each number of the range, and the number of source values that lead to it differs by at most one from that of any other number.", "quantifier": "all ranges up to 2^32", "why_tests_cant": "all ranges and all 2^32 source values", "anchors": ["src/lightspeed/base/streams/random.h: Random<natural>::transform"]}
{"id": "C460", "title": "Random natural numbers reach the whole of wide ranges", "statement": "For each range, Random<natural> can give each number of the range.", "quantifier": "all ranges", "why_tests_cant": "all ranges", "anchors": ["src/lightspeed/base/streams/random.h: Random<natural>::transform"]}
{"id": "C461", "title": "Random integers from zero lie in their range", "statement": "Random<integer>(0, maximum) with 0 < maximum <= 2^31 gives only values from 0 to maximum - 1.", "quantifier": "all maxima up to 2^31 and all states", "why_tests_cant": "all ranges", "anchors": ["src/lightspeed/base/streams/random.h: Random<integer>::transform"]}
{"id": "C462", "title": "Random integers lie in their range", "statement": "Random<integer>(minimum, maximum) with minimum < maximum gives only values from minimum to maximum - 1.", "quantifier": "all ranges and all states", "why_tests_cant": "all ranges", "anchors": ["src/lightspeed/base/streams/random.h: Random<integer>::transform"]}
{"id": "C463", "title": "setSeed restarts the generator", "statement": "After setSeed(seed) a generator gives the same values as a new generator with this seed.", "quantifier": "all seeds", "why_tests_cant": "all seeds", "anchors": ["src/lightspeed/base/streams/random.h: Rand::setSeed"]}
{"id": "C464", "title": "A one-shot set of sockets delivers each charge at most once", "statement": "EPollSelect: whatever the system reports and at whatever times, wait delivers only sockets that are charged, with the user data of the last charge; a delivered, removed or cancelled socket is not delivered again until it is charged again.", "quantifier": "all histories of set, unset, wait and cancelAll, with all replies of epoll and all clocks", "why_tests_cant": "all histories", "anchors": ["src/lightspeed/base/linux/epollSelect.cpp: EPollSelect::wait, set, unset, cancelAllVt"]}
{"id": "C465", "title": "No socket timeout is lost when delivered sockets are settled at once", "statement": "When after each delivery the delivered socket is at once charged again or removed, and the timeouts of all charged sockets that have one have passed, then wait reports the timeout of one of them at once.", "quantifier": "all such histories", "why_tests_cant": "all histories and orders of timeouts", "anchors": ["src/lightspeed/base/linux/epollSelect.cpp: EPollSelect::wait, addNewTm, removeOldTm"]}
{"id": "C466", "title": "Expired sockets are reported", "statement": "When the timeout of a charged socket has passed, wait reports a timeout at once.", "quantifier": "all histories", "why_tests_cant": "depends on the shape of the queue of timeouts", "anchors": ["src/lightspeed/base/linux/epollSelect.cpp: EPollSelect::wait, removeOldTm; containers/sort.tcc: HeapSort::pop(at)"]}
{"id": "C467", "title": "Charging one socket leaves the timeouts of others", "statement": "While a charged socket has a timeout, wait reports some timeout once it has passed, in whatever order sockets are charged.", "quantifier": "all histories", "why_tests_cant": "all orders of charges", "anchors": ["src/lightspeed/base/linux/epollSelect.cpp: EPollSelect::set, removeOldTm (tmRef)"]}
{"id": "C468", "title": "Waiting with a timeout is defined when no socket has one", "statement": "wait with a finite timeout, when no charged socket has a timeout, never reads outside of its tables, at whatever time the system returns after the requested milliseconds.", "quantifier": "all times", "why_tests_cant": "needs a return in the last millisecond", "anchors": ["src/lightspeed/base/linux/epollSelect.cpp: EPollSelect::wait"]}
{"id": "C469", "title": "cancelAll calls back each charged socket once", "statement": "cancelAll calls the callback exactly once for each charged socket, with its data, and for no other socket; afterwards no wait delivers anything until a socket is charged.", "quantifier": "all histories, all later waits", "why_tests_cant": "all histories", "anchors": ["src/lightspeed/base/linux/epollSelect.cpp: EPollSelect::cancelAllVt"]}
{"id": "C470", "title": "After cancelAll sockets have no user data", "statement": "After cancelAll all sockets are unset, so getUserData gives NULL.", "quantifier": "all histories", "why_tests_cant": "all histories", "anchors": ["src/lightspeed/base/linux/epollSelect.cpp: EPollSelect::cancelAllVt, getUserData"]}
{"id": "C471", "title": "A failed charge leaves nothing behind", "statement": "When set throws because the system refuses the descriptor, nothing is delivered for it later.", "quantifier": "all calls of set", "why_tests_cant": "needs failing system calls", "anchors": ["src/lightspeed/base/linux/epollSelect.cpp: EPollSelect::set"]}
{"id": "C472", "title": "A socket is not reported as timed out before its timeout", "statement": "wait with a timeout of its own reports the timeout of a socket at most one millisecond before it has passed.", "quantifier": "all histories and times", "why_tests_cant": "needs a return in the last millisecond", "anchors": ["src/lightspeed/base/linux/epollSelect.cpp: EPollSelect::wait"]}
{"id": "C473", "title": "User data of charged and removed sockets", "statement": "getUserData gives the data of the last charge while a socket is charged, and NULL after the socket has been removed.", "quantifier": "all histories", "why_tests_cant": "all histories", "anchors": ["src/lightspeed/base/linux/epollSelect.cpp: EPollSelect::getUserData, set, unset"]}
{"id": "C474", "title": "An event notifies exactly the observers it concerns", "statement": "When an event with some flags is delivered for a socket, exactly the observers whose open request meets the flags are notified, with the flags they asked for, and exactly those others whose timeout has passed, with 0; each at most once.", "quantifier": "all histories of requests and events on any number of sockets and observers", "why_tests_cant": "all histories", "anchors": ["src/lightspeed/base/linux/networkEventListener.cpp: LinuxNetworkEventListener::workerProc, doRequestWithSocket"]}
{"id": "C475", "title": "Sockets are watched for what their observers want", "statement": "The poll object always watches each socket for exactly the union of the events its observers wait for, with the nearest of their timeouts.", "quantifier": "all histories", "why_tests_cant": "all histories", "anchors": ["src/lightspeed/base/linux/networkEventListener.cpp: LinuxNetworkEventListener::updateFdData"]}
{"id": "C476", "title": "The listener neither uses freed records nor loses records", "statement": "While no system call fails, each record of listeners in memory belongs to exactly one socket with an open request, and no freed record is used.", "quantifier": "all histories", "why_tests_cant": "all histories", "anchors": ["src/lightspeed/base/linux/networkEventListener.cpp: LinuxNetworkEventListener::updateFdData, doRequestWithSocket"]}
{"id": "C477", "title": "A request is notified at most once on each socket", "statement": "Each notification belongs to a request that is open at that time: after a notification or a removal the observer is not notified for the socket again until it asks again.", "quantifier": "all histories", "why_tests_cant": "all histories", "anchors": ["src/lightspeed/base/linux/networkEventListener.cpp: LinuxNetworkEventListener::workerProc, doRequestWithSocket"]}
{"id": "C478", "title": "Observers learn of hang-ups and errors", "statement": "When the system reports a hang-up or an error on a socket, the observers waiting for it are notified.", "quantifier": "all histories", "why_tests_cant": "needs connections broken in special ways", "anchors": ["src/lightspeed/base/linux/networkEventListener.cpp: LinuxNetworkEventListener::workerProc; epollSelect.cpp: EPollSelect::wait"]}
{"id": "C479", "title": "A failed request leaves the listener intact", "statement": "After a request failed because of its descriptor, further requests for the same number work.", "quantifier": "all histories", "why_tests_cant": "needs failing system calls", "anchors": ["src/lightspeed/base/linux/networkEventListener.cpp: LinuxNetworkEventListener::doRequestWithSocket"]}
{"id": "C480", "title": "Recorded events are notified even when the socket cannot be watched again", "statement": "An observer whose event has come is notified, now or later, also when watching the socket for the other observers fails.", "quantifier": "all histories", "why_tests_cant": "needs failing system calls", "anchors": ["src/lightspeed/base/linux/networkEventListener.cpp: LinuxNetworkEventListener::workerProc"]}
{"id": "C481", "title": "Removing an observer frees its record", "statement": "After an observer is removed, also from a closed descriptor, no record is left in memory that belongs to no socket.", "quantifier": "all histories", "why_tests_cant": "needs failing system calls", "anchors": ["src/lightspeed/base/linux/networkEventListener.cpp: LinuxNetworkEventListener::updateFdData"]}
{"id": "C482", "title": "A request for a resource with several sockets is notified once", "statement": "Monitoring is disabled on the first recorded event: one request is notified at most once, also for a resource with several sockets.", "quantifier": "all resources, all orders of events", "why_tests_cant": "all orders of events", "anchors": ["src/lightspeed/base/linux/networkEventListener.cpp: LinuxNetworkEventListener::doRequest; netStreamSource.cpp: LinuxNetConnect::getSocket"]}
{"id": "C483", "title": "The pool of poll has each charged socket exactly once", "statement": "PollSelect gives to poll its wake-up pipe and each charged socket exactly once, and while nothing has been cancelled no other socket; a socket that waits for input is watched for input.", "quantifier": "all histories of set, unset, events, timeouts and cancelAll", "why_tests_cant": "all histories", "anchors": ["src/lightspeed/base/linux/pollSelect.cpp: PollSelect::set, removeFromPool, wait"]}
{"id": "C484", "title": "PollSelect delivers each charge at most once", "statement": "PollSelect delivers only sockets that are charged, with the data of the last charge; a delivered, removed or cancelled socket is not delivered until it is charged again.", "quantifier": "all histories", "why_tests_cant": "all histories", "anchors": ["src/lightspeed/base/linux/pollSelect.cpp: PollSelect::wait, set, cancelAllVt"]}
{"id": "C485", "title": "PollSelect watches for the events asked for", "statement": "A socket charged for input, output or exception is given to poll with POLLIN, POLLOUT or POLLPRI.", "quantifier": "all masks and histories", "why_tests_cant": "constants with nearly the same names", "anchors": ["src/lightspeed/base/linux/pollSelect.cpp: PollSelect::set"]}
{"id": "C486", "title": "Cancelled sockets are not watched", "statement": "After cancelAll no cancelled socket is given to poll.", "quantifier": "all histories", "why_tests_cant": "all histories", "anchors": ["src/lightspeed/base/linux/pollSelect.cpp: PollSelect::cancelAllVt"]}
{"id": "C487", "title": "A connection handler is called one call at a time and only as it asked", "statement": "For every schedule of the listener thread, the worker threads and callers of wakeUp, a connection of TCPServer has at most one handler call at a time; each call is one that the last answer asked for (read, write, timeout, user wake-up, disconnect); after removal the connection is neither used nor its handler called.", "quantifier": "all schedules of any number of threads (server not stopped, onAccept does not answer cmdWaitUserWakeup)", "why_tests_cant": "the windows are between two atomic operations", "anchors": ["src/lightspeed/base/framework/TCPServer.cpp: TCPServer::workerEx, reuse, Connection::wakeUp, CompletionWakeUp::wakeUp"]}
{"id": "C488", "title": "User wake-ups of connections are not lost", "statement": "When wakeUp on the user sleeper of a connection has returned, the connection is not left asleep: onUserWakeup is called after it whenever the connection waits for a wake-up.", "quantifier": "all schedules and any number of concurrent callers", "why_tests_cant": "races between falling asleep and waking up", "anchors": ["src/lightspeed/base/framework/TCPServer.cpp: TCPServer::workerEx, CompletionWakeUp::wakeUp"]}
{"id": "C489", "title": "User wake-up calls are not invented", "statement": "onUserWakeup is called at most as often as wakeUp was called, and its reason is one passed to an earlier call of wakeUp.", "quantifier": "all schedules", "why_tests_cant": "all schedules", "anchors": ["src/lightspeed/base/framework/TCPServer.cpp: TCPServer::workerEx, CompletionWakeUp::wakeUp"]}
{"id": "C490", "title": "A connection is removed only with a cause", "statement": "While no event is input and output at once, a connection is removed only when the handler answers cmdRemove, after onDisconnectByPeer, or when the executor refuses to run it.", "quantifier": "all schedules without simultaneous events", "why_tests_cant": "all schedules", "anchors": ["src/lightspeed/base/framework/TCPServer.cpp: TCPServer::Connection::wakeUp, workerEx, close"]}
{"id": "C491", "title": "Waiting for read or write works when both are ready", "statement": "A connection waiting with cmdWaitReadOrWrite gets one of onDataReady, onWriteReady when both events come at once; it is not removed.", "quantifier": "all events", "why_tests_cant": "needs both events in one poll", "anchors": ["src/lightspeed/base/framework/TCPServer.cpp: TCPServer::workerEx (switch over the event mask)"]}
{"id": "C492", "title": "onAccept may answer cmdWaitUserWakeup", "statement": "A connection whose onAccept answers cmdWaitUserWakeup is woken by wakeUp.", "quantifier": "all schedules", "why_tests_cant": "other entry into the protocol", "anchors": ["src/lightspeed/base/framework/TCPServer.cpp: TCPServer::acceptConn, reuse"]}
{"id": "C493", "title": "Each wake-up reason is delivered at most once", "statement": "A reason passed to one wakeUp call is given to onUserWakeup at most once.", "quantifier": "all schedules", "why_tests_cant": "needs two callers at once", "anchors": ["src/lightspeed/base/framework/TCPServer.cpp: CompletionWakeUp::wakeUp, workerEx"]}
{"id": "C494", "title": "stop() may be called while connections are active", "statement": "Stopping the server does not let a worker use a destroyed connection.", "quantifier": "all schedules", "why_tests_cant": "window between the check of the flag and the execution", "anchors": ["src/lightspeed/base/framework/TCPServer.cpp: TCPServer::stop, Connection::wakeUp"]}
{"id": "C495", "title": "Fibers switch control as documented", "statement": "In every program of fibers in one thread (with a zeroed context of the master fiber), wakeUp and start give control to their fiber, sleep to the fiber that woke it last or to the master when that has ended, the end of a fiber to the master; current() is the fiber that runs, sleep returns the last reason sent, a stopped fiber gets the stop exception when it goes on, checkState tells whether the fiber is active and throws its exception once, in the master only; without stop() the program is never terminated.", "quantifier": "all sequences of start, wakeUp, stop, sleep, end, current, checkState by any fibers", "why_tests_cant": "all interleavings of unboundedly many fibers", "anchors": ["src/lightspeed/mt/linux/fiber.cpp: Fiber::start, wakeUp, stop, sleep, switchFibers, checkState, FiberContext::fiberBootstrap"]}
{"id": "C496", "title": "The stack of a fiber is freed exactly once", "statement": "The context with the stack of a fiber is freed exactly once for each end of the fiber, and not before it.", "quantifier": "all programs of fibers", "why_tests_cant": "all programs", "anchors": ["src/lightspeed/mt/linux/fiber.cpp: Fiber::switchFibers, start"]}
{"id": "C497", "title": "Using fibers reads only initialised memory", "statement": "Starting a fiber that sleeps or ends does not read uninitialised memory.", "quantifier": "all programs", "why_tests_cant": "contents of malloc memory", "anchors": ["src/lightspeed/mt/linux/fiber.cpp: Fiber::createMasterFiber, switchFibers"]}
{"id": "C498", "title": "Any suspended fiber can be stopped", "statement": "stop() of a suspended fiber unwinds it and does not terminate the program.", "quantifier": "all programs", "why_tests_cant": "depends on where the fiber is suspended", "anchors": ["src/lightspeed/mt/linux/fiber.cpp: Fiber::stop, wakeUp (throw()), switchFibers"]}
{"id": "C499", "title": "sleep returns the reason of the call that resumed it", "statement": "When sleep() returns, wakeUp of this fiber has just been called and its reason is returned.", "quantifier": "all programs", "why_tests_cant": "needs three fibers", "anchors": ["src/lightspeed/mt/linux/fiber.cpp: Fiber::sleep"]}
{"id": "C500", "title": "A fiber can be destroyed during unwinding", "statement": "The destructor of a running fiber ends also while an exception is in flight.", "quantifier": "all programs", "why_tests_cant": "unwinding only", "anchors": ["src/lightspeed/mt/linux/fiber.cpp: Fiber::~Fiber, switchFibers"]}
{"id": "C501", "title": "The destructor stops the fiber", "statement": "After the destructor of a fiber has ended the fiber is not active any more and its stack has been freed.", "quantifier": "all programs", "why_tests_cant": "history of earlier runs", "anchors": ["src/lightspeed/mt/linux/fiber.cpp: Fiber::~Fiber, checkState, start"]}
{"id": "C502", "title": "Destroying a fiber does not harm the fibers it has woken", "statement": "A fiber whose caller has been destroyed can sleep.", "quantifier": "all programs", "why_tests_cant": "dangling pointer", "anchors": ["src/lightspeed/mt/linux/fiber.cpp: Fiber::sleep, ~Fiber"]}
{"id": "C503", "title": "Optional is an option", "statement": "Optional answers value(), comparison with nil, copying, moving and assignments as an option value does; value() of a nil variable throws NullPointerException, a constructor that throws in an assignment leaves the variable nil, and one that throws in the construction of an Optional changes nothing; this for programs whose assignments do not read the value they replace.", "quantifier": "all sequences of constructions, assignments, copies, moves, reads and destructions of any number of Optionals, any constructors throwing", "why_tests_cant": "all programs and all places of exceptions", "anchors": ["src/lightspeed/base/containers/optional.h: Optional<T>"]}
{"id": "C504", "title": "Optional destroys what it constructs", "statement": "Every object is constructed once and destroyed at most once, after that; at any time the objects alive are exactly those of the Optionals that hold a value, so nothing leaks and nothing is destroyed twice, also when constructors throw.", "quantifier": "all such programs", "why_tests_cant": "exceptions and all histories", "anchors": ["src/lightspeed/base/containers/optional.h: Optional<T>::~Optional, operator=, arm, disarm"]}
{"id": "C505", "title": "An Optional can be assigned a part of its own value", "statement": "An assignment from a reference into the value of the Optional itself, or from a constructor that uses it, stores the value referenced.", "quantifier": "all programs", "why_tests_cant": "undefined behaviour", "anchors": ["src/lightspeed/base/containers/optional.h: Optional<T>::operator="]}
{"id": "C506", "title": "The waiting object gives the events of registered resources", "statement": "For resources with one socket each, without wake-ups: getNext returns an event of a resource that is registered (added, not removed, no event since), with the mask poll() reported last for it, 0 when its time is over; then the resource is not registered; it waits only when poll() has reported nothing for the registered resources, uses no more answers of poll() than it needs, and never fails.", "quantifier": "all sequences of add, remove and getNext, all answers of poll() and times", "why_tests_cant": "all histories and answers of the kernel", "anchors": ["src/lightspeed/base/linux/linuxNetWaitingObj.cpp: add, remove, getNext, peek", "src/lightspeed/base/streams/netio_ifc.h: INetworkWaitingObject"]}
{"id": "C507", "title": "peek does not take the event", "statement": "peek() returns the next event, which the next getNext() returns again.", "quantifier": "all histories", "why_tests_cant": "first use, and order of calls", "anchors": ["src/lightspeed/base/linux/linuxNetWaitingObj.cpp: peek", "src/lightspeed/base/streams/netio_ifc.h: INetworkWaitingObject"]}
{"id": "C508", "title": "A wake-up event carries its reason", "statement": "After wakeUp(reason) the event with a NULL resource has the reason in it.", "quantifier": "all reasons", "why_tests_cant": "documented, all reasons", "anchors": ["src/lightspeed/base/linux/linuxNetWaitingObj.cpp: peek, wakeUp", "src/lightspeed/base/streams/netio_ifc.h: INetworkWaitingObject"]}
{"id": "C509", "title": "hasItems tells whether there are resources", "statement": "hasItems() is true exactly when a resource is registered.", "quantifier": "all histories", "why_tests_cant": "all histories", "anchors": ["src/lightspeed/base/linux/linuxNetWaitingObj.cpp: hasItems", "src/lightspeed/base/streams/netio_ifc.h: INetworkWaitingObject"]}
{"id": "C510", "title": "An event takes the resource out", "statement": "Once an event of a resource is retrieved, the resource is removed and must be added again, also when it has several sockets (a connection in progress to several addresses).", "quantifier": "all histories", "why_tests_cant": "resources with several sockets", "anchors": ["src/lightspeed/base/linux/linuxNetWaitingObj.cpp: peek", "src/lightspeed/base/streams/netio_ifc.h: INetworkWaitingObject"]}
{"id": "C511", "title": "sleep is refused only for an event", "statement": "sleep() returns false at once only when there is an event that getNext() gives without waiting.", "quantifier": "all histories", "why_tests_cant": "history dependent", "anchors": ["src/lightspeed/base/linux/linuxNetWaitingObj.cpp: sleep", "src/lightspeed/base/streams/netio_ifc.h: INetworkWaitingObject"]}
{"id": "C512", "title": "getNext sleeps while nothing happens", "statement": "getNext() waits in poll() when nothing happens to the registered resources.", "quantifier": "all histories and answers of poll()", "why_tests_cant": "needs a hang-up and time", "anchors": ["src/lightspeed/base/linux/linuxNetWaitingObj.cpp: peek", "src/lightspeed/base/streams/netio_ifc.h: INetworkWaitingObject"]}
{"id": "C513", "title": "MicroLock: mutual exclusion", "statement": "At most one thread is between the return of the constructor of its Synchronized<MicroLock> and the point where its destructor gives the lock up.", "quantifier": "all schedules of any number of threads, all stack addresses of the objects", "why_tests_cant": "races depend on the schedule", "anchors": ["src/lightspeed/mt/microlock.h: Synchronized<MicroLock>::lock, unlock"]}
{"id": "C514", "title": "MicroLock: first come, first served", "statement": "The threads get the lock in the order in which they joined its queue; a thread that joined is either waiting, inside, or has left; nobody gets the lock without having joined the queue and nobody gives up a lock that is not its own.", "quantifier": "all schedules of any number of threads, all stack addresses of the objects", "why_tests_cant": "races depend on the schedule", "anchors": ["src/lightspeed/mt/microlock.h: Synchronized<MicroLock>::lock, unlock"]}
{"id": "C515", "title": "MicroLock: no lost wake-up", "statement": "When no thread can move any more, no thread sleeps in the lock (spurious wake-ups included).", "quantifier": "all schedules of any number of threads, all stack addresses of the objects", "why_tests_cant": "a lost wake-up shows only under rare schedules", "anchors": ["src/lightspeed/mt/microlock.h: Synchronized<MicroLock>::lock, unlock"]}
{"id": "C516", "title": "MicroLock: an unused lock is free", "statement": "When no thread has an object of the lock, the next constructor gets it at once, with no waiting.", "quantifier": "all schedules of any number of threads, all stack addresses of the objects", "why_tests_cant": "all histories of earlier use", "anchors": ["src/lightspeed/mt/microlock.h: Synchronized<MicroLock>::lock, unlock"]}
{"id": "C517", "title": "MicroLock: no access to objects that are gone", "statement": "While the threads live, the lock accesses only objects on stacks of other threads that still exist.", "quantifier": "all schedules of any number of threads, all stack addresses of the objects", "why_tests_cant": "memory errors depend on the schedule", "anchors": ["src/lightspeed/mt/microlock.h: Synchronized<MicroLock>::unlock"]}
{"id": "C518", "title": "MicroLock: threads may end after they left", "statement": "A thread may end as soon as its Synchronized<MicroLock> is destroyed.", "quantifier": "all schedules of any number of threads, all stack addresses of the objects", "why_tests_cant": "memory errors depend on the schedule", "anchors": ["src/lightspeed/mt/microlock.h: Synchronized<MicroLock>::unlock"]}
{"id": "C519", "title": "Thread variables have different indexes", "statement": "Variables that exist at the same time never share an index, and a thread started now has a place for each of them; the table never needs more places than the largest number of variables that existed at once.", "quantifier": "all histories of declaring and destroying variables", "why_tests_cant": "indexes are recycled through a heap; all orders matter", "anchors": ["src/lightspeed/base/sync/tlsalloc.cpp: TLSAllocator::allocIndex, freeIndex, getMaxIndex"]}
{"id": "C520", "title": "Thread variables keep their values", "statement": "A variable of a thread has the value set last; unset and clear make it NULL and leave the other variables alone; each value with a delete function is passed to it exactly once when it leaves the table and not before (delete functions do not use thread variables).", "quantifier": "all programs of set, setVar, unset and clear, all table sizes", "why_tests_cant": "all histories", "anchors": ["src/lightspeed/base/sync/threadVar.h: TLSTable::setVar, unsetVar, clear, ThreadVar::set"]}
{"id": "C521", "title": "Delete functions may use thread variables", "statement": "When delete functions set and unset thread variables of the same thread (to values whose own delete functions do nothing), all calls end, each value with a delete function is passed to it exactly once or is still in the table, and a variable that was just set has the value.", "quantifier": "all programs, all such delete functions", "why_tests_cant": "re-entrant calls in all combinations", "anchors": ["src/lightspeed/base/sync/threadVar.h: TLSTable::setVar, unsetVar, ThreadVar::set"]}
{"id": "C522", "title": "The end of a thread deletes all its variables", "statement": "clear ends, leaves all variables NULL, and every value ever set with a delete function has been passed to it exactly once, also the values set by delete functions while clear runs.", "quantifier": "all programs before it, all such delete functions", "why_tests_cant": "re-entrant calls in all combinations", "anchors": ["src/lightspeed/base/sync/threadVar.h: TLSTable::clear"]}
{"id": "C523", "title": "A delete function may set its own variable again", "statement": "A value that a delete function sets to the variable being deleted is not lost: it is deleted later.", "quantifier": "all programs and delete functions", "why_tests_cant": "needs a re-entrant delete function", "anchors": ["src/lightspeed/base/sync/threadVar.h: TLSRecord::set, ThreadVar::set"]}
{"id": "C524", "title": "Moving a table keeps the values alive", "statement": "moveTo hands the values to the other table without deleting them.", "quantifier": "all tables", "why_tests_cant": "ownership of each value", "anchors": ["src/lightspeed/base/sync/threadVar.h: TLSTable::moveTo"]}
{"id": "C525", "title": "A failed setValue leaks nothing", "statement": "When setValue throws because the thread has no place for the variable, the copy of the value is deleted.", "quantifier": "all threads and variables younger than them", "why_tests_cant": "needs the failing path", "anchors": ["src/lightspeed/base/sync/threadVar.h: ThreadVar::setValue"]}
{"id": "C526", "title": "Thread hooks: installed hooks are exactly those that should be", "statement": "After any history of making, installing, uninstalling and deleting hooks, the installed ones are those installed and not uninstalled or deleted since; each is told exactly once about a thread that ends with an exception; no deleted hook is touched.", "quantifier": "all histories over any number of hooks", "why_tests_cant": "all orders of unlinking from a chain", "anchors": ["src/lightspeed/mt/threadHook.cpp: AbstractThreadHook::install, uninstall, ~AbstractThreadHook, callOnThreadExceptionHooks"]}
{"id": "C527", "title": "Thread hooks: order of the calls", "statement": "When no handler throws, a new thread calls onThreadInit of the installed hooks in the order of installation, then its function, then onThreadExit in reverse order (onThreadException when the function throws), and the call of start returns.", "quantifier": "all histories of installing hooks", "why_tests_cant": "all sets and orders of hooks", "anchors": ["src/lightspeed/mt/threadHook.cpp: callInitHooks, callOnThreadExitHooks", "src/lightspeed/mt/linux/thread.cpp: ThreadContext::bootstrap"]}
{"id": "C528", "title": "Thread hooks: a handler that throws at exit", "statement": "When onThreadExit of a hook throws, each hook that has not had its onThreadExit yet gets onThreadException, and nobody gets both.", "quantifier": "all sets of hooks, every hook that throws", "why_tests_cant": "all positions of the failure", "anchors": ["src/lightspeed/mt/threadHook.cpp: callOnThreadExitHooks"]}
{"id": "C529", "title": "Thread hooks: a handler that throws at the start", "statement": "When onThreadInit of a hook throws, the hooks that are initialised already get onThreadException, and only they.", "quantifier": "all sets of hooks, every hook that throws", "why_tests_cant": "all positions of the failure", "anchors": ["src/lightspeed/mt/threadHook.cpp: callInitHooks"]}
{"id": "C530", "title": "Thread::start returns", "statement": "When onThreadInit of a hook throws, start returns or throws.", "quantifier": "all sets of hooks, every hook that throws", "why_tests_cant": "needs a failing hook", "anchors": ["src/lightspeed/mt/threadHook.cpp: callOnThreadInitHooks", "src/lightspeed/mt/linux/thread.cpp: Thread::start, ThreadContext::bootstrap"]}
{"id": "C531", "title": "Thread: start and join in turn", "statement": "A client that starts a function and joins, again and again (no function throws, the system makes the threads): start never fails, the k-th function begins after the (k-1)-th join returned and ends before the k-th join returns, nothing blocks for ever, and after the last join no thread touches the object any more.", "quantifier": "all numbers of rounds, all schedules", "why_tests_cant": "races depend on the schedule", "anchors": ["src/lightspeed/mt/linux/thread.cpp: Thread::start, join, ThreadContext::bootstrap, finishThread"]}
{"id": "C532", "title": "Thread: the object may be destroyed after join", "statement": "After join has returned the Thread object may be destroyed, also when the function threw an exception.", "quantifier": "all schedules", "why_tests_cant": "races depend on the schedule", "anchors": ["src/lightspeed/mt/linux/thread.cpp: ThreadContext::handleException, finishThread"]}
{"id": "C533", "title": "Thread: join after a function that threw", "statement": "After a function that threw was joined, the next function can be started, and its join returns only when it has ended.", "quantifier": "all schedules", "why_tests_cant": "races depend on the schedule", "anchors": ["src/lightspeed/mt/linux/thread.cpp: ThreadContext::handleException, finishThread"]}
{"id": "C534", "title": "Thread: start that fails", "statement": "When start throws because the system cannot make a thread, the Thread object is as before: isRunning is false, join returns, it can be destroyed.", "quantifier": "all programs after the failure", "why_tests_cant": "needs a failing system call", "anchors": ["src/lightspeed/mt/linux/thread.cpp: Thread::start"]}
{"id": "C535", "title": "Thread: start without join", "statement": "When start accepts a new function, join returns only after this function has ended.", "quantifier": "all schedules of one client, no function throws", "why_tests_cant": "races depend on the schedule", "anchors": ["src/lightspeed/mt/linux/thread.cpp: Thread::start, ThreadContext::finishThread"]}
{"id": "C536", "title": "Thread: one function at a time", "statement": "A Thread object runs at most one function at a time; other clients are told that it is busy.", "quantifier": "all schedules of several clients", "why_tests_cant": "races depend on the schedule", "anchors": ["src/lightspeed/mt/linux/thread.cpp: Thread::start, join"]}
{"id": "C537", "title": "APC: the first message", "statement": "The call that queues a message into a server with no other messages returns, whatever the server does meanwhile, and tells the caller to notify the server.", "quantifier": "all schedules", "why_tests_cant": "races depend on the schedule", "anchors": ["src/lightspeed/mt/apc.h: AbstractAPCServer::execute"]}
{"id": "C538", "title": "APC: further messages", "statement": "The calls that queue further messages return.", "quantifier": "all numbers of messages, all schedules", "why_tests_cant": "races depend on the schedule", "anchors": ["src/lightspeed/mt/apc.h: AbstractAPCServer::execute"]}
{"id": "C539", "title": "APC: messages are run", "statement": "A queued message is run when the server executes its queue, in the order of the queue.", "quantifier": "all numbers of messages, all schedules", "why_tests_cant": "all histories of the queue", "anchors": ["src/lightspeed/mt/apc.h: AbstractAPCServer::executeQueue, executeOne, IAPCServer::getNext"]}
{"id": "C540", "title": "APC: messages are rejected once", "statement": "Each message that is in the queue when the server is destroyed is rejected exactly once.", "quantifier": "all queues", "why_tests_cant": "all histories of the queue", "anchors": ["src/lightspeed/mt/apc.h: AbstractAPCServer::rejectAll, IAPCServer::getNext"]}
{"id": "C541", "title": "APC: sleep returns", "statement": "sleep of an APCThread returns when the time is over or the thread is woken up.", "quantifier": "all results of the wait", "why_tests_cant": "no test shows that a call never returns", "anchors": ["src/lightspeed/mt/apcthread.cpp: APCThread::impSleep"]}
{"id": "C542", "title": "Services: the active object", "statement": "A query for an interface is answered by the object registered last among those still registered, whatever was added and removed, from the top or by pointer.", "quantifier": "all histories of registrations and removals", "why_tests_cant": "all histories", "anchors": ["src/lightspeed/base/framework/services.cpp: Services::addService, removeService, proxyInterface"]}
{"id": "C543", "title": "Services: no object", "statement": "A query for an interface for which no object is registered returns null.", "quantifier": "all histories of registrations and removals", "why_tests_cant": "all histories", "anchors": ["src/lightspeed/base/framework/services.cpp: Services::removeService, proxyInterface"]}
{"id": "C544", "title": "Services: objects with several interfaces", "statement": "An object added with the list of its interfaces answers for each of them; after it is removed with that list, every interface is answered by the object that answered before.", "quantifier": "all histories, all lists of interfaces, also with repetitions", "why_tests_cant": "all histories", "anchors": ["src/lightspeed/base/framework/iservices.h: IServices::addService, removeService"]}
{"id": "C545", "title": "Command line: the items", "statement": "Reading a command line item by item gives, argument by argument, a long switch for --name, one short switch for each character of -abc, and a text for everything else, also for - and for empty arguments that are followed by a zero.", "quantifier": "all arguments, all starting positions", "why_tests_cant": "all texts", "anchors": ["src/lightspeed/base/framework/cmdLineIterator.cpp: CmdLineIterator::getNext, peek, hasItems"]}
{"id": "C546", "title": "Command line: mixed reading", "statement": "After any calls, reading a text gives the rest of a group of short switches or the whole next argument, peeking does not move, and the rest of the arguments can be obtained; a call throws only when nothing is left.", "quantifier": "all arguments, all sequences of calls", "why_tests_cant": "all sequences of calls", "anchors": ["src/lightspeed/base/framework/cmdLineIterator.cpp: CmdLineIterator::getNext, peek, getNextText, peekText, getRemainArgs, hasItems"]}
{"id": "C547", "title": "Command line: comparison of positions", "statement": "Of two iterators over the same arguments, the one that has read more is greater; they are equal when none has.", "quantifier": "all arguments, all sequences of calls", "why_tests_cant": "all sequences of calls", "anchors": ["src/lightspeed/base/framework/cmdLineIterator.cpp: CmdLineIterator::lessThan, equalTo"]}
{"id": "C548", "title": "Command line: empty arguments", "statement": "An empty argument is read without looking outside of its characters.", "quantifier": "all positions of the argument", "why_tests_cant": "undefined behaviour is not visible in tests", "anchors": ["src/lightspeed/base/framework/cmdLineIterator.cpp: CmdLineIterator::peek"]}
{"id": "C549", "title": "Message thread: automatic start", "statement": "When messages are sent by any number of threads at the same time and the system can start threads, the message thread is started once, and it is running when no call is in progress and one has returned.", "quantifier": "all numbers of senders, all schedules", "why_tests_cant": "races depend on the schedule", "anchors": ["src/lightspeed/mt/msgthread.cpp: MsgThreadBase::notify, autoStart"]}
{"id": "C550", "title": "Message thread: no second start", "statement": "After the automatic start, when no call is in progress, messages do not start the thread again, also after it was stopped.", "quantifier": "all numbers of senders, all schedules before and after", "why_tests_cant": "races depend on the schedule", "anchors": ["src/lightspeed/mt/msgthread.cpp: MsgThreadBase::notify, autoStart"]}
{"id": "C551", "title": "Message thread: stopped for good", "statement": "A message thread that was started automatically and then stopped is not started again by messages, also by calls in progress at that time.", "quantifier": "all schedules", "why_tests_cant": "races depend on the schedule", "anchors": ["src/lightspeed/mt/msgthread.cpp: MsgThreadBase::notify, autoStart"]}
{"id": "C552", "title": "Message thread: failed start", "statement": "When the thread could not be started, a later message starts it or its call reports the failure.", "quantifier": "all numbers of senders, all schedules after the failure", "why_tests_cant": "failures of the system are rare", "anchors": ["src/lightspeed/mt/msgthread.cpp: MsgThreadBase::autoStart"]}
