{"id": "C01", "title": "Text is always valid UTF-8 within capacity", "statement": "After any finite history of calls that starts with a constructor and continues with any safe mutating calls (whatever their arguments and whether they succeed or fail), as_str() is the UTF-8 encoding of some sequence of Unicode scalar values, its byte length equals len(), and len() <= capacity().", "quantifier": "every capacity 1..=255, every constructor, every finite sequence of safe calls with every argument", "why_tests_cant": "The history space is infinite; an example sequence says nothing about the next one.", "anchors": ["src/arraystring.rs: ArrayString, replace_range", "src/implementations.rs: AsRef<str>, AsMut<str>"]}
{"id": "C02", "title": "No panic, no undefined behaviour, no endless loop", "statement": "Every operation other than Index/IndexMut, called on any value obtainable through the safe API, with any arguments (closures, iterators and formattings passed in must themselves return, string iterators must end; if they panic, the call at worst panics), returns normally: it never panics (in debug builds: no arithmetic overflow, no failed debug_assert), never performs an out-of-bounds pointer access or builds a non-UTF-8 str in its unsafe blocks, and never loops forever.", "quantifier": "every reachable value, every operation, every argument (indices up to usize::MAX), debug and release builds, every usize width >= 16", "why_tests_cant": "Absence of UB/panic for all inputs cannot be established by sampling; Miri only checks executed inputs.", "anchors": ["src/arraystring.rs: replace_range, drain, remove", "src/utils.rs: truncate_str", "src/implementations.rs: as_ref, as_mut"]}
{"id": "C03", "title": "Debug and release builds agree, on every pointer width", "statement": "For any value, operation and arguments, a build with overflow checks and debug assertions and a build without them return the same result and leave the same text, and so do targets of different usize width when the index arguments fit both (numbers in range bounds must be below both usize maxima, since n..=usize::MAX saturates).", "quantifier": "every reachable value, every operation, every argument, both build profiles, every usize width >= 16", "why_tests_cant": "Requires comparing two builds on all inputs.", "anchors": ["src/arraystring.rs: replace_range", "src/utils.rs: into_lossy, truncate_str", "src/implementations.rs: debug_assert uses"]}
{"id": "C04", "title": "Failed calls change nothing", "statement": "Whenever a fallible mutating call (try_push_str, try_push, truncate, remove, try_insert, try_insert_str, insert_str_truncate, split_off, drain, replace_range, write_str) returns an error, the string is left exactly as it was.", "quantifier": "every reachable value, every fallible call, every argument that makes it fail", "why_tests_cant": "Atomicity must hold at each of the error exits for every state.", "anchors": ["src/arraystring.rs: replace_range, remove, drain, truncate", "src/implementations.rs: write_str"]}
{"id": "C05", "title": "try_push_str appends or reports OutOfBounds", "statement": "try_push_str(t) succeeds exactly when len() + t.len() <= capacity(), and then the text is the old text followed by t; otherwise it returns OutOfBounds. No other error is possible.", "quantifier": "every reachable value and every &str", "why_tests_cant": "Boundary over all pairs of lengths and contents.", "anchors": ["src/arraystring.rs: try_push_str"]}
{"id": "C06", "title": "push_str_truncate appends the longest prefix that fits", "statement": "push_str_truncate(t) appends the longest prefix of t, cut between characters, for which the total stays within capacity(); in particular it never splits a character and never drops one that would still fit as part of a prefix.", "quantifier": "every reachable value and every &str, including multi-byte characters straddling the limit", "why_tests_cant": "All alignments of 1-4 byte characters against all remaining capacities.", "anchors": ["src/arraystring.rs: push_str_truncate", "src/utils.rs: truncate_str"]}
{"id": "C07", "title": "try_push appends one character or reports OutOfBounds", "statement": "try_push(c) succeeds exactly when len() + c.len_utf8() <= capacity(), appending exactly c; otherwise OutOfBounds and no change.", "quantifier": "every reachable value and every char", "why_tests_cant": "1.1M characters times all states.", "anchors": ["src/arraystring.rs: try_push"]}
{"id": "C08", "title": "try_from_str accepts exactly the strings that fit", "statement": "try_from_str(t) (and str::parse / FromStr) returns a value whose text is t exactly when t.len() <= capacity(), else OutOfBounds.", "quantifier": "every capacity and every &str", "why_tests_cant": "Unbounded inputs.", "anchors": ["src/arraystring.rs: try_from_str", "src/implementations.rs: FromStr"]}
{"id": "C09", "title": "from_str_truncate keeps the longest prefix that fits", "statement": "from_str_truncate(t) (and From<&str>) yields the longest whole-character prefix of t of at most capacity() bytes; t itself when it fits.", "quantifier": "every capacity and every &str", "why_tests_cant": "Unbounded inputs, all character alignments.", "anchors": ["src/arraystring.rs: from_str_truncate", "src/implementations.rs: From<&str>"]}
{"id": "C10", "title": "try_from_iterator concatenates or reports OutOfBounds", "statement": "try_from_iterator over strings yields their concatenation exactly when the total byte length is at most capacity(), else OutOfBounds; it stops pulling items right after the first one that does not fit.", "quantifier": "every capacity, every finite sequence of &str", "why_tests_cant": "Unbounded sequences.", "anchors": ["src/arraystring.rs: try_from_iterator"]}
{"id": "C11", "title": "from_iterator_truncate keeps the longest prefix of the concatenation", "statement": "from_iterator_truncate (and FromIterator<&str>) yields the longest whole-character prefix, of at most capacity() bytes, of the concatenation of the items; items after the first that does not fit are not pulled.", "quantifier": "every capacity, every finite sequence of &str", "why_tests_cant": "Unbounded sequences.", "anchors": ["src/arraystring.rs: from_iterator_truncate", "src/implementations.rs: FromIterator<&str>"]}
{"id": "C12", "title": "try_from_chars collects or reports OutOfBounds", "statement": "try_from_chars yields exactly the characters of the iterator when their encoded length is at most capacity(), else OutOfBounds.", "quantifier": "every capacity and every finite sequence of chars", "why_tests_cant": "Unbounded sequences.", "anchors": ["src/arraystring.rs: try_from_chars"]}
{"id": "C13", "title": "from_chars_truncate keeps the longest prefix", "statement": "from_chars_truncate (and FromIterator<char>) yields the longest prefix of the iterator's characters whose encoding fits in capacity().", "quantifier": "every capacity and every finite sequence of chars (infinite iterators: C45)", "why_tests_cant": "Unbounded sequences.", "anchors": ["src/arraystring.rs: from_chars_truncate", "src/implementations.rs: FromIterator<char>"]}
{"id": "C14", "title": "try_from_utf16 reports the first problem, else decodes", "statement": "try_from_utf16(u) yields the decoded text when u is well-formed UTF-16 and fits; otherwise it returns Utf16 if an unpaired surrogate occurs before the first character that does not fit, and OutOfBounds if a character that does not fit comes first.", "quantifier": "every capacity and every u16 slice", "why_tests_cant": "All surrogate patterns and lengths.", "anchors": ["src/arraystring.rs: try_from_utf16"]}
{"id": "C15", "title": "from_utf16_truncate decodes up to capacity", "statement": "from_utf16_truncate(u) yields the longest prefix of the decoded characters that fits; it returns Utf16 exactly when an unpaired surrogate is met before the first character that does not fit. (An unpaired surrogate after the cut is not reported, although the documentation says invalid data is.)", "quantifier": "every capacity and every u16 slice", "why_tests_cant": "All surrogate patterns and lengths.", "anchors": ["src/arraystring.rs: from_utf16_truncate"]}
{"id": "C16", "title": "from_utf16_lossy_truncate replaces and truncates", "statement": "from_utf16_lossy_truncate(u) yields the longest prefix that fits of the text obtained from u by decoding surrogate pairs and replacing every unpaired surrogate by U+FFFD.", "quantifier": "every capacity and every u16 slice", "why_tests_cant": "All surrogate patterns and lengths.", "anchors": ["src/arraystring.rs: from_utf16_lossy_truncate"]}
{"id": "C17", "title": "UTF-16 round trip", "statement": "For every text that fits, try_from_utf16, from_utf16_truncate and from_utf16_lossy_truncate applied to its UTF-16 encoding give back exactly that text.", "quantifier": "every capacity and every text that fits", "why_tests_cant": "All texts.", "anchors": ["src/arraystring.rs: try_from_utf16, from_utf16_truncate, from_utf16_lossy_truncate"]}
{"id": "C18", "title": "truncate cuts at a character boundary only", "statement": "truncate(n) does nothing when n >= len(); otherwise, if n is a character boundary, it keeps exactly the first n bytes; otherwise it returns Utf8 and changes nothing.", "quantifier": "every reachable value and every n", "why_tests_cant": "All states times all n.", "anchors": ["src/arraystring.rs: truncate"]}
{"id": "C19", "title": "pop removes and returns the last character", "statement": "pop() returns None on the empty string and leaves it empty; otherwise it returns the last character and the text becomes the rest.", "quantifier": "every reachable value", "why_tests_cant": "All texts, all encoded widths.", "anchors": ["src/arraystring.rs: pop"]}
{"id": "C20", "title": "trim removes exactly the surrounding whitespace", "statement": "trim() leaves the text without its longest prefix and longest suffix of Unicode White_Space characters (empty if all are whitespace); inner whitespace is untouched.", "quantifier": "every reachable value", "why_tests_cant": "All positions of multi-byte whitespace.", "anchors": ["src/arraystring.rs: trim"]}
{"id": "C21", "title": "remove takes out exactly the character at an index", "statement": "remove(i) returns OutOfBounds when i >= len() (including usize::MAX), Utf8 when i is inside a character, and otherwise returns the character starting at byte i and removes exactly it.", "quantifier": "every reachable value and every usize", "why_tests_cant": "All states times all indices.", "anchors": ["src/arraystring.rs: remove"]}
{"id": "C22", "title": "retain filters in order, calling the closure once per character", "statement": "retain(f) calls f exactly once on each character in order (f may be stateful) and keeps exactly those for which it returned true, in order.", "quantifier": "every reachable value and every FnMut(char) -> bool with any internal state", "why_tests_cant": "All stateful closures.", "anchors": ["src/arraystring.rs: retain"]}
{"id": "C23", "title": "try_insert / try_insert_str insert at a byte index", "statement": "try_insert(i, c) and try_insert_str(i, t): OutOfBounds if i > len(); if t is empty, Ok with no change; OutOfBounds if t alone exceeds capacity(); Utf8 if i is inside a character; OutOfBounds if the total exceeds capacity(); otherwise Ok and the text is prefix(i) ++ t ++ suffix(i). (So an empty t at a non-boundary index is accepted, although the documentation promises Utf8.)", "quantifier": "every reachable value, every index, every char / &str", "why_tests_cant": "All states times all indices and strings.", "anchors": ["src/arraystring.rs: try_insert, try_insert_str"]}
{"id": "C24", "title": "insert_str_truncate inserts the longest prefix that fits", "statement": "insert_str_truncate(i, t) inserts at byte i the longest whole-character prefix of t that fits in capacity() - len(); OutOfBounds if i > len(); Utf8 if i is inside a character and that prefix is non-empty. (When the prefix is empty, e.g. on a full string, a non-boundary index is silently accepted, although the documentation promises Utf8.)", "quantifier": "every reachable value, every index, every &str", "why_tests_cant": "All states times all indices and strings.", "anchors": ["src/arraystring.rs: insert_str_truncate", "src/utils.rs: truncate_str"]}
{"id": "C25", "title": "replace_range splices", "statement": "replace_range(r, t) with r denoting bytes a..b on character boundaries inside the text, and the new total within capacity(), makes the text prefix(a) ++ t ++ suffix(b); every other case is an error (OutOfBounds for a > b, b > len() or lack of room; Utf8 for a non-boundary) except that an empty range with empty t is Ok with no change, even when it lies outside the text.", "quantifier": "every reachable value, every RangeBounds<usize> (all inclusive/exclusive/unbounded combinations, up to usize::MAX) and every &str", "why_tests_cant": "Memmove arithmetic must be right for every triple of lengths.", "anchors": ["src/arraystring.rs: replace_range"]}
{"id": "C26", "title": "drain removes a range and hands it out", "statement": "drain(r) with r denoting a..b on boundaries inside the text returns a Drain whose as_str() is the text between a and b and removes that part at once, even if the Drain is dropped unread; otherwise OutOfBounds if a > b or b > len(), else Utf8, and nothing changes.", "quantifier": "every reachable value and every RangeBounds<usize>", "why_tests_cant": "All states times all ranges.", "anchors": ["src/arraystring.rs: drain", "src/drain.rs: Drain"]}
{"id": "C27", "title": "Drain behaves as a double-ended queue of the drained characters", "statement": "Under any interleaving of next() and next_back(), Drain yields the drained characters from the front and from the back, each exactly once, as_str() always shows the characters not yet yielded, and once it returned None it returns None for ever.", "quantifier": "every drained text and every finite schedule of next / next_back", "why_tests_cant": "Exponentially many interleavings.", "anchors": ["src/drain.rs: next, next_back, FusedIterator"]}
{"id": "C28", "title": "split_off splits at a boundary", "statement": "split_off(i) returns OutOfBounds if i > len(), Utf8 if i is inside a character, and otherwise returns the text from byte i and keeps the text before it.", "quantifier": "every reachable value and every index", "why_tests_cant": "All states times all indices.", "anchors": ["src/arraystring.rs: split_off"]}
{"id": "C29", "title": "new / default / clear / len / is_empty / capacity", "statement": "new() and default() are empty; clear() empties any value; len() is the byte length of the text; is_empty() is true exactly when the text is empty; capacity() is the type's N whatever happened to the value.", "quantifier": "every capacity and every reachable value", "why_tests_cant": "All states.", "anchors": ["src/arraystring.rs: new, clear, len, capacity", "src/implementations.rs: Default, Deref"]}
{"id": "C30", "title": "Equality is equality of texts", "statement": "Two values, or a value and a str, compare equal exactly when their texts are equal, whatever the history of each value (left-over bytes never matter); equality is an equivalence relation.", "quantifier": "every pair of reachable values, every &str", "why_tests_cant": "All pairs of histories.", "anchors": ["src/implementations.rs: PartialEq, PartialEq<str>", "src/drain.rs: PartialEq"]}
{"id": "C31", "title": "Ordering is the code point lexicographic order", "statement": "cmp/partial_cmp order values as the lexicographic order of their sequences of Unicode scalar values; it is a total order consistent with ==.", "quantifier": "every pair/triple of reachable values", "why_tests_cant": "All pairs and triples.", "anchors": ["src/implementations.rs: Ord, PartialOrd", "src/drain.rs: Ord"]}
{"id": "C32", "title": "Hash agrees with Eq and with the borrowed str", "statement": "For every Hasher, hashing a value feeds it exactly what hashing its text as str feeds it, so equal values hash equally and HashMap lookups by &str work (Borrow<str> contract together with Eq and Ord).", "quantifier": "every reachable value, every Hasher and Hasher state", "why_tests_cant": "All hashers.", "anchors": ["src/implementations.rs: Hash, Borrow<str>", "src/drain.rs: Hash"]}
{"id": "C33", "title": "Extend appends the longest prefix that fits", "statement": "extend over chars, &chars or strs appends the longest whole-character prefix of the iterator's concatenated content that fits in the remaining capacity.", "quantifier": "every reachable value, every finite sequence of items (infinite iterators: C45)", "why_tests_cant": "Unbounded sequences; two-stage truncation.", "anchors": ["src/implementations.rs: Extend<char>, Extend<&char>, Extend<&str>"]}
{"id": "C34", "title": "Operators and conversions are the corresponding methods", "statement": "s + t has the text push_str_truncate would give; From<&str> truncates like from_str_truncate, FromStr fails like try_from_str, FromIterator truncates.", "quantifier": "every reachable value, every argument", "why_tests_cant": "All inputs.", "anchors": ["src/implementations.rs: Add, From<&str>, FromStr, FromIterator"]}
{"id": "C35", "title": "fmt::Write appends whole pieces until one does not fit", "statement": "write_str appends the piece or fails with no change; write_fmt / write! emits pieces in order and stops at the first that does not fit, so after a failure the text is the old text followed by exactly the pieces before the failing one.", "quantifier": "every reachable value, every sequence of formatted pieces", "why_tests_cant": "All piece sequences.", "anchors": ["src/implementations.rs: Write"]}
{"id": "C36", "title": "Display prints the text, ignoring format flags", "statement": "Display writes exactly the text to any sink, with any width, fill, alignment and precision in force (and reports the sink's error). str's own Display honours these flags, so {:>8} or {:.3} on an ArrayString differs from the same on its text.", "quantifier": "every reachable value, every format specification, every sink", "why_tests_cant": "All format specifications.", "anchors": ["src/implementations.rs: Display"]}
{"id": "C37", "title": "Index and IndexMut behave as on str", "statement": "Indexing by u8 ranges returns the same slice as indexing the text by the same usize range and panics exactly when that would; the only exception is an already exhausted RangeInclusive, whose exhaustion is forgotten. IndexMut gives access to the same bytes.", "quantifier": "every reachable value and every u8 range of the six kinds", "why_tests_cant": "65536 ranges times all states.", "anchors": ["src/implementations.rs: Index, IndexMut"]}
{"id": "C38", "title": "In-place edits through &mut str", "statement": "Writing through as_mut_str / as_mut / deref_mut / borrow_mut / index_mut any valid str content of the same length makes exactly that the text, without touching the rest; ASCII case conversion in place changes exactly the ASCII letters.", "quantifier": "every reachable value, every same-length edit", "why_tests_cant": "All edits.", "anchors": ["src/arraystring.rs: as_mut_str", "src/implementations.rs: AsMut<str>, DerefMut, BorrowMut, IndexMut"]}
{"id": "C39", "title": "CacheString is ArrayString<63>", "statement": "Every CacheString operation returns the same result and leaves the same text as the same operation on ArrayString<63>; its capacity is 63; iterators and closures are consumed alike; conversion from ArrayString<63> keeps the text.", "quantifier": "every reachable CacheString, every operation and argument", "why_tests_cant": "All operations times all states.", "anchors": ["src/lib.rs: cache_string"]}
{"id": "C40", "title": "serde round trip and truncation", "statement": "Serializing writes the text as a string; deserializing a borrowed string yields its longest prefix that fits, hence round-trips whatever was serialized. Input a format can only hand over as a transient or owned string is rejected (String accepts it, and the documentation says it operates like String).", "quantifier": "every reachable value, every deserializer input", "why_tests_cant": "All texts and formats.", "anchors": ["src/integration.rs: serde_impl"]}
{"id": "C41", "title": "diesel round trip and truncation", "statement": "to_sql emits exactly what str emits for the text; from_sql of a column text yields its longest prefix that fits; a stored value is read back unchanged. A backend that returns a null pointer makes from_sql panic in debug builds and undefined in release builds; a dangling pointer or bytes that are not UTF-8 make it undefined in both.", "quantifier": "every reachable value and every column text", "why_tests_cant": "All texts.", "anchors": ["src/integration.rs: diesel_impl"]}
{"id": "C42", "title": "Memory footprint", "statement": "ArrayString<N> and Drain<N> occupy N + 1 bytes for every N, CacheString exactly 64 bytes with alignment 64; SmallString has a capacity of three words and so occupies 3 words + 1 byte, not the size of a String as its documentation says.", "quantifier": "every capacity, every pointer width", "why_tests_cant": "All capacities and targets.", "anchors": ["src/arraystring.rs: ArrayString", "src/lib.rs: SmallString, CacheString"]}
{"id": "C43", "title": "String parity over whole histories", "statement": "Any history of mutating calls whose results always fit capacity() gives the same results and the same texts as the same history on std::string::String, where a String panic corresponds to an Err here (except for the empty insertion/replacement listed in C23-C25).", "quantifier": "every history of operations that stay within capacity", "why_tests_cant": "Infinite set of histories; the test-suite compares 8 strings with single operations.", "anchors": ["tests/string_parity.rs", "src/arraystring.rs: all mutators"]}
{"id": "C44", "title": "Panicking closures and iterators do not corrupt the value", "statement": "If the closure given to retain, or the iterator given to extend, panics at any call, the string is left exactly as before the call; constructors given a panicking iterator just propagate the panic.", "quantifier": "every reachable value, every closure/iterator and every point at which it panics", "why_tests_cant": "Every crash point.", "anchors": ["src/arraystring.rs: retain", "src/implementations.rs: Extend"]}
{"id": "C45", "title": "Char iterators are consumed lazily, also infinite ones", "statement": "try_from_chars, from_chars_truncate, FromIterator<char> and Extend<char> pull exactly the items that fit plus at most one, so at most capacity()+1, and return on infinite iterators.", "quantifier": "every capacity, every finite or infinite iterator", "why_tests_cant": "Infinite iterators.", "anchors": ["src/arraystring.rs: from_chars_truncate, try_from_chars", "src/implementations.rs: Extend<char>"]}
{"id": "C46", "title": "Misbehaving AsRef implementations are harmless", "statement": "If the items given to from_iterator_truncate return different strings from successive as_ref() calls, the result is still a valid text within capacity, built from a prefix of the first answers followed by at most a prefix of the failing item's second answer.", "quantifier": "every sequence of items with arbitrary answers", "why_tests_cant": "All adversarial AsRef implementations.", "anchors": ["src/arraystring.rs: from_iterator_truncate"]}
{"id": "C47", "title": "Behaviour depends only on the text", "statement": "Two values of the same capacity with the same text, whatever their histories, give the same results and the same texts under every further sequence of calls: bytes left over from earlier contents are never observable.", "quantifier": "every pair of reachable values with equal text, every further history", "why_tests_cant": "Pairs of histories.", "anchors": ["src/arraystring.rs: replace_range, clear, truncate, pop"]}
{"id": "C48", "title": "Undo laws", "statement": "pop then try_push of the returned character, split_off then try_push_str of the returned part, drain then try_insert_str of the drained part at the start index, remove then try_insert at the same index, try_insert_str then drain of the inserted range (an empty text inserted inside a character, which C23 accepts, excepted), and try_push then pop each succeed and restore the original text.", "quantifier": "every reachable value, every index/range/character for which the first call succeeds", "why_tests_cant": "All states and arguments.", "anchors": ["src/arraystring.rs: pop, try_push, split_off, drain, try_insert_str, remove"]}
{"id": "C49", "title": "Idempotence laws", "statement": "trim, clear, truncate(n), and retain(p) for a pure predicate p, applied twice give the same text as applied once.", "quantifier": "every reachable value, every n and predicate", "why_tests_cant": "All states.", "anchors": ["src/arraystring.rs: trim, clear, truncate, retain"]}
{"id": "C50", "title": "Error values", "statement": "Error::Utf8, Utf16 and OutOfBounds are pairwise different under ==, == is an equivalence consistent with Hash, Display prints the name of the error and Debug adds Error:: in front, so the texts are pairwise different, the hash is that of the name, and converting the specific error types into Error preserves which error it is.", "quantifier": "every pair of error values, every hasher", "why_tests_cant": "Small finite domain but every hasher.", "anchors": ["src/error.rs: Error, Utf8, Utf16, OutOfBounds"]}
{"id": "C51", "title": "Capacity range", "statement": "Every capacity from 1 to 255 (including CacheString's 63 and SmallString on 16-, 32- and 64-bit targets) is admissible and the stored length, kept in one byte, is never truncated: len() always equals the true byte length. At capacity 256 this would fail, so 255 is the exact upper limit.", "quantifier": "every admissible capacity, every reachable value", "why_tests_cant": "All capacities.", "anchors": ["src/arraystring.rs: sealed::ValidCapacity", "src/utils.rs: IntoLossy", "src/lib.rs: SmallString"]}
{"id": "C52", "title": "Debug output", "statement": "Debug of an ArrayString, to any writer and in both the {:?} and the {:#?} form, asks for exactly the bytes of the struct notation `ArrayString { array: .., size: .. }` with the text printed as str prints it and the length as u8 prints it; Drain and CacheString add their names around that. A writer's error ends the output there. Two values with the same text print the same.", "quantifier": "every reachable value, every writer (also failing ones), both forms, whatever str's and u8's Debug write", "why_tests_cant": "All texts, writers and failure points.", "anchors": ["src/implementations.rs: Debug", "src/drain.rs: Debug", "src/lib.rs: CacheString"]}
{"id": "C53", "title": "Different calls, same effect", "statement": "try_push_str is try_insert_str at len(); a char argument acts like the one-character string; pop is remove of the last character; split_off(i) and drain(i..) cut off the same part or fail alike, and truncate(i) keeps what they keep; remove(i) is drain of that character's bytes; clear, truncate(0), drain(..) and replace_range(.., \"\") all empty the string; replace_range is drain followed by try_insert_str with the same result (but unchanged text when there is no room), and fails on the ranges drain fails on (except for replacing an empty range by nothing, C25, and replacements longer than the capacity, which are OutOfBounds); push_str_truncate, + and extend append the same text, also that of try_push_str when it succeeds; truncating twice is truncating to the smaller size.", "quantifier": "every reachable value, every argument", "why_tests_cant": "Pairs of calls over all states.", "anchors": ["src/arraystring.rs: try_push_str, try_insert_str, try_push, try_insert, pop, remove, split_off, drain, truncate, clear, replace_range, push_str_truncate", "src/implementations.rs: Add, Extend"]}
{"id": "C54", "title": "Appending in pieces", "statement": "try_push_str of a text succeeds exactly when pushing its two halves one after the other succeeds, with the same text. push_str_truncate of the halves gives at least the text of the whole, and exactly that text when the first half is not cut.", "quantifier": "every reachable value, every text and every place to split it", "why_tests_cant": "All texts and split points.", "anchors": ["src/arraystring.rs: try_push_str, push_str_truncate"]}
{"id": "C55", "title": "Moving between capacities", "statement": "Converting an ArrayString<M> to an ArrayString<N> through as_str: try_from_str succeeds exactly when the text fits N bytes, always when N >= M, and keeps the text; from_str_truncate keeps the longest prefix that fits; cutting to one capacity and then to another is the same as cutting to the smaller one.", "quantifier": "every pair of capacities, every reachable value, every text", "why_tests_cant": "Pairs of capacities times all texts.", "anchors": ["src/arraystring.rs: try_from_str, from_str_truncate, as_str"]}
{"id": "C56", "title": "Drain under the provided iterator methods", "statement": "nth, nth_back, count, last, collect, find, for_each and rev on a Drain give what they give on the characters of the drained text. If the closure given to for_each or find panics, the Drain holds exactly the characters not yet handed out. Extending another string, of any capacity, from a Drain appends the longest prefix of the drained text that fits.", "quantifier": "every Drain, every closure and every call at which it panics, every index", "why_tests_cant": "All texts, closures and crash points.", "anchors": ["src/drain.rs: Iterator, DoubleEndedIterator", "src/implementations.rs: Extend<char>"]}
{"id": "C57", "title": "Foreign code in generic arguments", "statement": "AsRef<str>, AsRef<[u16]> and RangeBounds arguments are foreign code with state that may answer differently each time or panic. Each method asks its arguments before it writes anything, exactly once per argument when logging is off (try_insert_str not at all when the index is past the end), and then acts as on the fixed answer; if an argument panics the string is untouched. With the logs feature extra answers are requested and thrown away. try_from_iterator takes one answer of each item, in order, and stops at the first answer that does not fit; from_iterator_truncate asks each item once, the one that does not fit once more, and appends as much of that second answer as fits; after a panic nothing else is asked.", "quantifier": "every string value, every stateful or panicking argument, with and without logging", "why_tests_cant": "All implementations of foreign traits.", "anchors": ["src/arraystring.rs: try_push_str, push_str_truncate, try_insert_str, insert_str_truncate, replace_range, drain, try_from_str, from_str_truncate, try_from_iterator, from_iterator_truncate, try_from_utf16"]}
{"id": "C58", "title": "Comparison operators, max, min and clamp", "statement": "!=, <, <=, > and >= on ArrayString, Drain and CacheString are those of the texts, in the order of their scalar values; max and min return one of their two arguments, on equal texts the second and the first respectively; clamp returns the bound or the value and panics exactly when the lower bound is above the upper. A successful try_push_str of a non-empty text gives a greater value, truncate, split_off and pop never a greater one.", "quantifier": "every pair or triple of reachable values", "why_tests_cant": "All pairs and triples of texts.", "anchors": ["src/implementations.rs: PartialEq, PartialOrd, Ord", "src/drain.rs: PartialEq, PartialOrd, Ord", "src/lib.rs: CacheString"]}
{"id": "C59", "title": "Laws about calls made one after the other", "statement": "retain by two predicates in turn is retain by their conjunction, retain distributes over appending, keeping all or nothing is no change or clear; white space added around a text does not change what trim leaves; of several ASCII case changes the last one counts; replacing a range and then the replacement gives the result and text of replacing the range once; two insertions at different places give the same text in either order.", "quantifier": "every reachable value, every predicate, text, range and place", "why_tests_cant": "All states and arguments.", "anchors": ["src/arraystring.rs: retain, trim, replace_range, try_insert_str, try_push_str", "src/implementations.rs: DerefMut"]}
{"id": "C60", "title": "Histories do not depend on spare capacity", "statement": "A history of calls whose texts (those std's String would have) never exceed capacity N gives the same results and the same final text on an ArrayString<N> and on an ArrayString<M> for every M >= N; for a rejected call only the kind of error may differ. Excluded are the calls of C43 that String rejects and ArrayString accepts.", "quantifier": "every pair of capacities, every reachable value, every history", "why_tests_cant": "All histories at all pairs of capacities.", "anchors": ["src/arraystring.rs: all mutating methods"]}
{"id": "C61", "title": "The project's parity tests hold for every input", "statement": "Every assertion of tests/string_parity.rs, which compares String and ArrayString<255> on eight strings, holds for every string, every admissible capacity, every index, character and closure, as long as the result fits: the constructors, the UTF-16 constructors on valid and invalid units, push, +, truncate, pop, trim, remove, retain, insert, clear, split_off, drain (collected into a String), replace_range, len and is_empty. ArrayString reports an error exactly where String panics.", "quantifier": "every capacity, every string, UTF-16 sequence, index, character and closure", "why_tests_cant": "The tests themselves run on eight strings at one capacity and one index.", "anchors": ["tests/string_parity.rs", "src/arraystring.rs: all methods"]}
{"id": "C62", "title": "Pointers are used within their borrow", "statement": "No call of the API is undefined behaviour under the aliasing rules (Stacked Borrows): neither replace_range, which writes to the array through a raw pointer, nor drain, which copies from a &str of the string in unsafe code, nor any of the methods built from them. Called through a reference that may use the string, a call never uses a pointer whose permission is gone, gives the result and text that the other claims about it state (or panics in the caller's code as they state), and leaves that reference usable, as well as the reference it was made from. So does every sequence of calls, every constructor (on a variable of its own, leaving other memory alone), every sequence of next and next_back on a Drain, and every call on a CacheString, its own or through Deref and DerefMut. The &mut str from as_mut and the &str from as_str may use the bytes of the text: the one may write them again and again until the string is next used through its owner, the other may be read while the string is also read through its owner. Hash, comparisons (of two strings, or of one with itself), serde's Serialize, diesel's ToSql and Debug only read: they may be called through a shared reference or while one is lent, which stays usable.", "quantifier": "every reachable value, every permission state in which the caller's reference is usable (any other references around, any calls in progress), every call with every argument, every finite sequence of calls", "why_tests_cant": "Miri checks the executions it is given; here all of them, under any surrounding borrows.", "anchors": ["src/arraystring.rs: replace_range, drain, as_str, len and the other methods", "src/implementations.rs: as_ref, as_mut, the other impls", "src/utils.rs: is_char_boundary", "src/drain.rs: next, next_back, as_str, Hash, PartialEq, Ord", "src/lib.rs: CacheString", "src/integration.rs: Serialize, ToSql"]}
{"id": "C63", "title": "JSON documents", "statement": "serde_json::to_string of an ArrayString or CacheString writes its text between quotes with JSON's escapes. serde_json::from_str gives an ArrayString exactly for the documents that are one string without escapes, possibly between white space, and the text is then the longest prefix that fits; every other document is an error, never a panic. Hence writing and reading back returns the text exactly when it has no quote, backslash or control character; otherwise it is an error, where String reads the text back. Exactly: String reads every JSON string, whichever of its characters are written as they are, as a short escape, as \\u and four hexadecimal digits or as a surrogate pair, and the crate refuses those with at least one escape.", "quantifier": "every reachable value, every document", "why_tests_cant": "All texts and all documents; the project's JSON tests use one text without escapes.", "anchors": ["src/integration.rs:85-121", "src/integration.rs:146-180"]}
{"id": "C64", "title": "Truncation wastes at most three bytes", "statement": "After from_str_truncate, From<&str>, push_str_truncate, +, insert_str_truncate, from_chars_truncate, from_iterator_truncate, Extend or from_utf16_lossy_truncate the string has all of the wanted text, or the first character that was dropped would not have fitted. So of a text that is too long at most three bytes of the capacity stay unused, and none if the text is ASCII.", "quantifier": "every capacity, every reachable value, every text, iterator and UTF-16 sequence", "why_tests_cant": "All texts at all capacities.", "anchors": ["src/arraystring.rs: from_str_truncate, push_str_truncate, insert_str_truncate, from_chars_truncate, from_iterator_truncate, from_utf16_lossy_truncate", "src/implementations.rs: Add, Extend, From<&str>", "src/utils.rs: truncate_str"]}
{"id": "C65", "title": "Failed calls can be left out of a history", "statement": "Leaving out of any history of calls those that reported an error and those that only look at the string changes neither the result of any other call nor a single byte of the final value. A write! that failed is not left out, as it may have written some pieces.", "quantifier": "every reachable value, every finite history of calls with every argument", "why_tests_cant": "All histories.", "anchors": ["src/arraystring.rs: all methods", "src/implementations.rs: all impls"]}
{"id": "C66", "title": "Truncation and order", "statement": "from_str_truncate of a beginning of a text is a beginning of from_str_truncate of the text. The result equals the text exactly when it fits, and is smaller otherwise. For two texts a < b the results are in reverse order exactly when at the first difference the character of a fits and the longer one of b does not; so never for characters of equal width.", "quantifier": "every capacity, every pair of texts", "why_tests_cant": "All pairs of texts at all capacities.", "anchors": ["src/arraystring.rs: from_str_truncate", "src/implementations.rs: Ord, PartialEq<str>", "src/utils.rs: truncate_str"]}
{"id": "C67", "title": "Fallible and truncating variants agree", "statement": "try_from_str and from_str_truncate, try_push_str and push_str_truncate, try_insert_str and insert_str_truncate at a valid index, try_from_chars and from_chars_truncate, try_from_iterator and from_iterator_truncate: the fallible call succeeds exactly when the truncating one keeps everything, and then with the same text; otherwise the truncating one keeps a shorter beginning. Both take the same items from an iterator. At an invalid index what insert_str_truncate rejects try_insert_str rejects too. The three constructors from UTF-16 make the same text, or both others report a lone surrogate, or try_from_utf16 reports OutOfBounds and the two others make the same text.", "quantifier": "every capacity, every reachable value, every text, index, iterator and UTF-16 sequence", "why_tests_cant": "All arguments of the pairs of calls.", "anchors": ["src/arraystring.rs: try_* and *_truncate constructors and methods"]}
{"id": "C68", "title": "Ways out of a string and back in", "statement": "The text of a string of any capacity arrives unchanged in a string of any other capacity that has room for it: through chars and try_from_chars, collect or extend, through drain(..) and collect, through write! with any format options, and several strings through try_from_iterator. write! into a string without room fails and leaves it unchanged; collecting strings keeps the longest prefix that fits.", "quantifier": "every pair (or list) of capacities, every reachable value", "why_tests_cant": "All texts at all pairs of capacities.", "anchors": ["src/arraystring.rs: try_from_chars, try_from_iterator, drain", "src/implementations.rs: Display, fmt::Write, FromIterator, Extend", "src/drain.rs: Iterator"]}
{"id": "C69", "title": "The crate's unit tests hold for every input", "statement": "The assertions of the tests inside the crate hold for every text, not only for theirs: truncate_str gives the longest prefix of at most n bytes for every n; an ArrayString or CacheString written as JSON and read as an ArrayString of any capacity gives the longest prefix that fits if the text needs no escape, else an error; one stored in a column that keeps texts and queried again gives the text, cut to the capacity read into.", "quantifier": "every text, capacity and length; every column codec that keeps texts", "why_tests_cant": "The tests use one or three texts each.", "anchors": ["src/utils.rs:72-83", "src/integration.rs:138-180", "src/integration.rs:256-300"]}
{"id": "C70", "title": "Programs with several strings and draining iterators", "statement": "A program makes any number of strings of any capacities, copies and swaps them, passes the text of one to the methods of another (push, insert, replace_range, +, write!, ==, cmp), splits and drains them and takes, collects or extends from the draining iterators in any interleaving, with any calls of the API in between. Every command answers as the same command on plain texts, and every variable then shows the text of its counterpart. No command has undefined behaviour or diverges, nothing panics but arguments and index ranges, debug and release builds answer alike, and a command leaves every byte of the variables it does not name unchanged.", "quantifier": "every finite program, every number of variables and capacities, every argument", "why_tests_cant": "All programs, all interleavings of iterators and strings of different capacities.", "anchors": ["src/arraystring.rs: all methods", "src/implementations.rs: all impls", "src/drain.rs: all methods and impls"]}
{"id": "C71", "title": "Logging cannot change behaviour, and what a panicking logger leaves behind (feature logs)", "statement": "With the feature logs every message goes to the program's logger. A logger that returns from every message whose level is enabled, whatever it records, changes no result and no byte of any history of calls; with all levels off this is every logger. If the logger panics, a constructor passes the panic on, and a call has either its usual effect, or left the string untouched, or is an edit interrupted at its last len message, which leaves the new bytes with the old length: harmless for appends, but an edit in the middle can leave a string that is not UTF-8 (refuted: remove). With the level trace off, or a logger that accepts len messages, the middle edits are safe too: whatever a program calls and however often it catches a panic, its string shows a text and calls return or panic. write! keeps the first pieces, trim may have cut the end only, or be interrupted at the last len message of its cut at the front. Comparisons, hashing, Debug, the iteration of a Drain, serde, diesel and CacheString behave likewise (a panicking logger leaves the database's output untouched, and of Debug only the names of the types written). With foreign code as the string argument the same holds for one of the answers of that code, whatever other answers the messages consumed.", "quantifier": "every logger with any state, every log level, every argument (also foreign as_ref), every reachable value", "why_tests_cant": "All loggers and all points at which they may panic.", "anchors": ["src/arraystring.rs: trace!, debug! in all methods", "src/utils.rs: trace!, debug!", "src/error.rs:119-199", "src/lib.rs:108-118"]}
{"id": "C72", "title": "Strings as keys of maps", "statement": "A HashMap or BTreeMap whose keys are ArrayStrings (or CacheStrings) answers every sequence of insert, get and remove like a map from texts to values, when entries are looked up by &str as well as by keys: the answer is the value last inserted for that text, whatever the histories of the keys, the hasher and the part of the hash that the table uses. The map then holds exactly the entries of that map, each text once, a BTreeMap in the order of the texts.", "quantifier": "every finite sequence of calls, all keys, values, hashers and slot functions", "why_tests_cant": "All sequences of calls; all hashers, so also every collision.", "anchors": ["src/implementations.rs: Hash, Borrow<str>, PartialEq, Ord", "src/lib.rs: CacheString: Hash, Borrow<str>, PartialEq, Ord"]}
{"id": "C73", "title": "Conversions through core's blanket impls, and the benchmarks", "statement": "into, try_from and try_into of a &str are built by core on From<&str>: they give the longest prefix that fits and never fail, unlike parse, which gives the text or OutOfBounds; when the text fits both give it. to_string gives the text, and parse of that gives it back in every capacity with room. The benchmarks measure a type with an input exactly when the input fits, and every iteration of the push benchmark starts empty and pushes the whole input. The same for CacheString.", "quantifier": "every capacity, every &str, every reachable value, every number of iterations", "why_tests_cant": "All texts at all capacities.", "anchors": ["src/implementations.rs: From<&str>, FromStr, Display, Deref", "src/lib.rs: CacheString: From<&str>, From<ArrayString<63>>, FromStr, Display", "benches/string.rs:8-165"]}
{"id": "C74", "title": "What is logged (feature logs)", "statement": "Every constructor and every history of calls sends to the logger, at level debug, exactly the messages of the specification, in order and with their arguments: one per edit with the length, the byte range replaced and the text put there (also the edits that trim, retain, drain, split_off, extend, collect and the UTF-16 constructors make), one at the start of truncate, pop, remove, drain, split_off and the UTF-16 constructors; none for an insertion behind the end, for clear, for trim of whitespace only, or for calls that only look. Nothing is sent at a level that is off, and results are those without logs. With both levels on the first message of a call, if the logger panics on it, is the only one and the string is untouched.", "quantifier": "every reachable value, every finite history of calls, every argument, every log level", "why_tests_cant": "All histories and arguments; the tests look at no log.", "anchors": ["src/arraystring.rs: trace!, debug! in all methods", "src/utils.rs: trace!, debug!", "src/implementations.rs: Write, Extend, Add, Index, Display", "src/lib.rs:108-118"]}
{"id": "C75", "title": "Log messages can be printed (feature logs)", "statement": "Every message that a constructor or a call sends can be shown: the strings in it are UTF-8, and the ArrayString that some messages show ({self}) is the string as it was before the call, so it holds a text. A logger may rely on that: one that prints every message with code that returns is no different from no logger, and one that may panic leaves behind what C71 says. Printing {self} itself logs (as_str, len), so the logger runs inside itself, at most once; a line printer writes each message with its arguments, with the inner lines in the middle. Whatever logger listens, it is handed the same messages in the same order: the log that is printed is the log that is recorded, line by line. All this holds for CacheString too. A logger that holds a lock while printing does not survive this (refuted: trim always panics).", "quantifier": "every reachable value, every finite history of calls, every argument, every logger or printer with any state, every log level", "why_tests_cant": "All messages of all histories; the tests install no logger.", "anchors": ["src/arraystring.rs: trace!, debug! in all methods", "src/utils.rs: trace!, debug!", "src/implementations.rs: Display, Debug", "src/error.rs:119-199"]}
{"id": "C76", "title": "The log tells why a call failed (feature logs)", "statement": "With the level trace on, a call that reports OutOfBounds or Utf8 has put into the log exactly one check that does not hold, and it is the reason: a number above its limit for OutOfBounds, or a position of the string's own text that is not a character boundary for Utf8. A call that reports no error, or panics, has logged no check that fails. The same for constructors; a lone surrogate is not a check and is not logged. So the log shows of every history which calls failed and why. Not for extend, collect and the other constructors that cut their input, nor for write!, which may go on after a failed check.", "quantifier": "every reachable value, every finite history of calls, every argument", "why_tests_cant": "All arguments and histories; the tests look at no log.", "anchors": ["src/arraystring.rs: trace!, debug! in all methods", "src/utils.rs: is_inside_boundary, is_char_boundary", "src/implementations.rs: Write, Add", "src/error.rs:119-199"]}
{"id": "C77", "title": "The whole log (feature logs)", "statement": "Apart from Len and As str, which stand for every look at the string, the log of every constructor and every history of calls is known message by message, at both levels, in order and with the arguments: what the call is and what it was given, the calls it makes in turn (push_str under push, from_chars_truncate and one push per character under retain, try_from_str under drain), each edit, each check (the numbers compared, the text and the position) up to the first that does not hold, and then the error it is turned into, which a try_from_utf16 without room announces twice. What the log says depends only on the text, the arguments and, where a message shows it, the string itself; the debug assertions change nothing but the number of Len and As str. The same for CacheString.", "quantifier": "every reachable value, every finite history of calls, every argument, every log level, both build profiles", "why_tests_cant": "All histories and arguments; the tests look at no log.", "anchors": ["src/arraystring.rs: trace!, debug! in all methods", "src/utils.rs: trace!, debug!", "src/implementations.rs: Write, Extend, Add, Index", "src/error.rs:119-199"]}
{"id": "C78", "title": "Programs with several strings and a logger (feature logs)", "statement": "All strings and draining iterators of a program send their messages to one logger, also in the middle of an extend or collect that takes characters from one and puts them into another. A logger that returns from every enabled message changes no answer and no byte of any variable of any program, so programs behave as on texts. With a logger that may panic, though not on a len message, a command does what it does without logs or passes the panic on: a command that makes one change has then made none; an interrupted extend or collect has only taken characters from the front of its iterator, which are lost; the string that was to get them is as before. However often a program catches such panics, its commands return or panic and all its variables show texts. Whatever the logger does, variables a command does not name keep every byte.", "quantifier": "every finite program, every number of variables and capacities, every logger with any state, every log level", "why_tests_cant": "All programs, all loggers and all points at which they may panic.", "anchors": ["src/arraystring.rs: trace!, debug! in all methods", "src/implementations.rs: Extend, FromIterator, Write, Display, PartialEq, Ord", "src/drain.rs: all methods and impls", "src/utils.rs: trace!, debug!"]}
{"id": "C79", "title": "The whole log of a program (feature logs)", "statement": "The messages that a program with several strings and draining iterators sends are those of its commands in turn, each known from the command and the texts its variables have at that time: at level debug all of them, and apart from Len and As str also those of level trace, in order and with the arguments. An extend or collect that reads a draining iterator announces itself, then in turn for each character the remove, its checks and the edit of the iterator, and the push, its checks and the edit of the new string, until the iterator's check fails or a character has no room; extend then pushes what was collected. Copying, comparing and swapping variables says nothing but Len and As str. With only level debug on, the log is the same in debug and release builds. Every other logger that returns from the enabled messages gets the same ones in the same order, and a program cannot tell two loggers apart that treat the enabled messages alike.", "quantifier": "every finite program, every number of variables and capacities, every log level, both build profiles", "why_tests_cant": "All programs and texts; the tests look at no log.", "anchors": ["src/arraystring.rs: trace!, debug! in all methods", "src/implementations.rs: Extend, FromIterator, Write, Display, PartialEq, Ord", "src/drain.rs:93-119", "src/utils.rs: trace!, debug!"]}
