{"id": "C01", "title": "Base64 round trip", "statement": "Decoding the Base64 encoding of any string gives back exactly that string, and the decoder never reads outside its tables while doing so.", "quantifier": "all byte strings of any length, including embedded NULs and bytes >= 128", "why_tests_cant": "Tests try a few strings; the three padding classes interact with the line breaks inserted every 60 input bytes, so every length and content class matters.", "anchors": ["lolly/data/base64.cpp: encode_base64, decode_base64, int_to_b64, b64_to_int"]}
{"id": "C02", "title": "Base64 output is standard Base64 in 80-column lines", "statement": "With line feeds removed, the encoder's output is the RFC 3548 encoding of the input (independently defined by splitting the input into 6-bit groups and padding with '='), and a line feed appears exactly after every 80 output characters that are followed by more output.", "quantifier": "all byte strings of any length", "why_tests_cant": "An interoperability claim about every length modulo 3 and modulo 60; tests only compare literals.", "anchors": ["lolly/data/base64.cpp: encode_base64"]}
{"id": "C03", "title": "Base64 decoder is total on arbitrary text", "statement": "Decoding any string whatsoever is memory safe, ignores characters outside the alphabet, and stops at the first '='.", "quantifier": "all byte strings, not only encoder output", "why_tests_cant": "Out-of-table and out-of-array reads are invisible to value-comparing tests and need hostile input.", "anchors": ["lolly/data/base64.cpp: decode_base64"]}
{"id": "C04", "title": "UTF-8 round trip", "statement": "For every code point up to 0x1FFFFF, decoding its UTF-8 encoding at its position inside any surrounding string returns the same code point and advances the cursor by exactly the length of the encoding; larger codes encode to the empty string.", "quantifier": "all 32-bit codes, all strings before and after", "why_tests_cant": "There are two million codes times all contexts; tests sample a handful without context.", "anchors": ["lolly/data/unicode.cpp: encode_as_utf8, decode_from_utf8"]}
{"id": "C05", "title": "UTF-8 decoder progress and safety", "statement": "For every byte string and every cursor inside it, the decoder only reads inside the string, strictly advances the cursor and never moves it past the end, so a scanning loop over arbitrary bytes terminates; on a broken sequence it yields the first byte and resumes right after it.", "quantifier": "all byte strings, valid or not, and all cursor positions", "why_tests_cant": "Malformed and truncated input is combinatorial; the loop clamps the cursor in a way tests do not exercise.", "anchors": ["lolly/data/unicode.cpp: decode_from_utf8"]}
{"id": "C06", "title": "UTF-8 text scanning", "statement": "Encoding any sequence of code points (up to 0x1FFFFF) and scanning the result from the start with the decoder yields exactly that sequence; so distinct sequences have distinct encodings.", "quantifier": "all finite sequences of code points", "why_tests_cant": "Needs induction over sequences; tests check one or two literals.", "anchors": ["lolly/data/unicode.cpp: encode_as_utf8, decode_from_utf8"]}
{"id": "C07", "title": "Hexadecimal integers round trip", "statement": "Converting any 32-bit signed integer to hexadecimal (either case) and back gives the same integer.", "quantifier": "all int32 values", "why_tests_cant": "2^32 values; the extreme value is special-cased in only one direction.", "anchors": ["lolly/data/numeral.cpp: to_Hex, to_hex, from_hex"]}
{"id": "C08", "title": "Fixed-width and binary hexadecimal", "statement": "The fixed-width form has exactly the requested number of digits and denotes the argument's low bits modulo 16^width for widths 1 to 16; widths 0 and above 16 are rejected with an exception; the hex dump of a byte string has two digits per byte that determine the byte string.", "quantifier": "all int values, all non-negative widths, all byte strings", "why_tests_cant": "Template-unrolled code for sixteen widths over 2^32 values.", "anchors": ["lolly/data/numeral.cpp: as_hexadecimal, as_hexadecimal_sub, binary_to_hexadecimal, to_padded_Hex, uint32_to_Hex"]}
{"id": "C09", "title": "Roman numerals denote their number", "statement": "For every n with 1 <= n <= 3999 the Roman numeral printed has value n under the ordinary additive/subtractive reading, negative numbers are the '-' followed by the numeral of the absolute value, distinct numbers in range get distinct numerals, and all other numbers print 'o' or '?'.", "quantifier": "all int32 values", "why_tests_cant": "Tests list a few numerals; table mistakes in one cell are only seen by covering all cells.", "anchors": ["lolly/data/numeral.cpp: to_roman, to_Roman"]}
{"id": "C10", "title": "Chinese numerals denote their number", "statement": "The Chinese numeral of any 32-bit integer reads back (under the ordinary reading of digits and the units ten, hundred, thousand, wan, yi) as that integer, and it is written in the ordinary way: wan is written only after a non-empty group.", "quantifier": "all int32 values", "why_tests_cant": "2^32 values through a 32-way case split; zeros inside the number are the hard cases.", "anchors": ["lolly/data/numeral.cpp: to_hanzi, hanzi_sub"]}
{"id": "C11", "title": "Alphabetic numbering", "statement": "alpha_nr is the bijective base-26 numeral (a, b, ..., z, aa, ab, ...): for positive n its letters read back as n, so labels are never repeated; 0 is '0' and negatives are '-' followed by the label of the absolute value.", "quantifier": "all integers in the int range", "why_tests_cant": "Unbounded range with a carry rule at 26, 702, ... that tests sample.", "anchors": ["Kernel/Types/analyze.cpp: alpha_nr, Alpha_nr"]}
{"id": "C12", "title": "Decimal integers round trip", "statement": "Reading back the decimal string of any integer with as_int gives the same integer, for every int value.", "quantifier": "all int values", "why_tests_cant": "2^32 values; accumulation sign and overflow at the extreme value are not exercised.", "anchors": ["Kernel/Types/string.cpp: as_string(int), as_int"]}
{"id": "C13", "title": "Integer recogniser agrees with the reader", "statement": "is_int is safe on every string and accepts exactly optional sign followed by at least one digit; on accepted strings as_int returns the number denoted when it fits.", "quantifier": "all strings", "why_tests_cant": "Strings made of signs only, repeated signs and long digit runs are easy to miss and the out-of-range read is invisible.", "anchors": ["Kernel/Types/string.cpp: is_int, as_int"]}
{"id": "C14", "title": "Strings never overrun their buffer", "statement": "After any sequence of appends, resizes and writes a string's contents equal those of the obvious list model, its buffer always has room for its length, and characters below the new length survive every reallocation.", "quantifier": "all sequences of string operations from any initial length", "why_tests_cant": "Growth policy boundaries depend on the whole history of sizes.", "anchors": ["Kernel/Types/string.cpp: round_length, string_rep::resize, operator<<"]}
{"id": "C15", "title": "Substring and concatenation laws", "statement": "A substring with any start and end (including out-of-range and inverted ones) is exactly the characters whose index lies in the clamped range; taking [0,i) and [i,n) and concatenating gives back the string; concatenation is associative with the empty string as unit.", "quantifier": "all strings, all pairs of integers", "why_tests_cant": "Clamping interacts with negative and inverted ranges over all lengths.", "anchors": ["Kernel/Types/string.cpp: string::operator(), operator*"]}
{"id": "C16", "title": "String order is a total order", "statement": "<= on strings is reflexive, antisymmetric, transitive and total, < is its strict part, and == agrees with it; sorting by it is therefore meaningful.", "quantifier": "all pairs and triples of byte strings", "why_tests_cant": "Order axioms quantify over triples; bytes >= 128 are compared as signed characters.", "anchors": ["Kernel/Types/string.cpp: operator<, operator<=, operator==", "lolly/data/string_view.hpp"]}
{"id": "C17", "title": "Forward search finds the first match", "statement": "search_forwards returns the least position >= pos at which the pattern occurs, or -1 when there is none.", "quantifier": "all patterns and texts, all positions from 0 to the length of the text", "why_tests_cant": "Completeness (no match missed) is a universally quantified negative.", "anchors": ["Kernel/Types/analyze.cpp: search_forwards, occurs, contains, test"]}
{"id": "C18", "title": "Backward search finds the last match", "statement": "search_backwards returns the greatest position <= pos at which the pattern occurs, or -1 when there is none.", "quantifier": "all patterns and texts, all starting positions (for the empty pattern: positions up to the length of the text)", "why_tests_cant": "Same as forward search.", "anchors": ["Kernel/Types/analyze.cpp: search_backwards"]}
{"id": "C19", "title": "Occurrence count is exact", "statement": "count_occurrences returns the number of positions at which the pattern occurs, overlapping ones included.", "quantifier": "all non-empty patterns and texts", "why_tests_cant": "Counting over all texts; overlaps are the hard case.", "anchors": ["Kernel/Types/analyze.cpp: count_occurrences"]}
{"id": "C20", "title": "Replacement is left-to-right and complete", "statement": "replace (s, what, by) is the string obtained by cutting s at the left-to-right non-overlapping occurrences of what and joining the pieces with by; text outside the matches is unchanged; it terminates for every argument.", "quantifier": "all strings s, what, by", "why_tests_cant": "Quantifies over all overlaps of pattern and text; termination for the empty pattern is never tested.", "anchors": ["Kernel/Types/analyze.cpp: replace"]}
{"id": "C21", "title": "Tokenize and recompose are inverse", "statement": "Joining the tokens of s with the separator gives back s, no token contains the separator, and tokenizing the join of separator-free tokens gives back the tokens when the separator is a single character.", "quantifier": "all strings, all non-empty separators, all token lists", "why_tests_cant": "Round trips in both directions over all texts; overlapping separators are the hard case.", "anchors": ["Kernel/Types/analyze.cpp: tokenize, recompose"]}
{"id": "C22", "title": "Wildcard matching is glob matching", "statement": "match_wildcard (s, w) holds exactly when s can be obtained from w by replacing each '*' by some string.", "quantifier": "all texts and all patterns", "why_tests_cant": "Existential semantics over all splits.", "anchors": ["Kernel/Types/analyze.cpp: match_wildcard"]}
{"id": "C23", "title": "Trimming removes exactly the outer spaces", "statement": "trim_spaces_left/right/both remove exactly the maximal prefix/suffix of spaces, keep everything else, and are idempotent.", "quantifier": "all strings", "why_tests_cant": "All-space and empty strings interact with the index loops.", "anchors": ["Kernel/Types/analyze.cpp: trim_spaces_left, trim_spaces_right, trim_spaces"]}
{"id": "C24", "title": "Quoting round trips", "statement": "Quoting a string with raw_quote is recognised by is_quoted and raw_unquote gives the string back; raw_unquote leaves unquoted strings alone. unescape_guile replaces each \\xHH by the byte it denotes, doubles escaped backslashes and copies everything else.", "quantifier": "all byte strings", "why_tests_cant": "Sequences of backslashes and quotes are combinatorial.", "anchors": ["Kernel/Types/analyze.cpp: raw_quote, raw_unquote, is_quoted, unescape_guile"]}
{"id": "C25", "title": "Case conversion laws", "statement": "upcase_all and locase_all keep the length, change only letters, are idempotent, and lower-casing an upper-cased lower-case ASCII string gives it back; the first-letter variants touch only the first character.", "quantifier": "all byte strings", "why_tests_cant": "All 256 byte values including the ISO Latin ranges whose mapping is not invertible.", "anchors": ["Kernel/Types/analyze.cpp: upcase, locase, upcase_first, locase_first, upcase_all, locase_all"]}
{"id": "C26", "title": "Differences describe an edit script", "statement": "Applying the replacements listed by differences (s1, s2) to s1 yields s2, and distance is zero only for equal strings.", "quantifier": "all pairs of strings", "why_tests_cant": "The reconstruction law quantifies over all pairs; a wrong early return is only visible on equal-length inputs.", "anchors": ["Kernel/Types/analyze.cpp: find_longest, find_common, differences, distance"]}
{"id": "C27", "title": "Overlap is the longest suffix-prefix match", "statement": "overlapping (s1, s2) returns the length of the longest suffix of s1 that is a prefix of s2.", "quantifier": "all pairs of strings", "why_tests_cant": "Maximality is a universally quantified negative.", "anchors": ["Kernel/Types/analyze.cpp: overlapping"]}
{"id": "C28", "title": "String union and difference are set operations", "statement": "A character is in string_union (s1, s2) iff it is in s1 or s2 and in string_minus (s1, s2) iff it is in s1 and not in s2; both keep s1's order.", "quantifier": "all pairs of strings", "why_tests_cant": "Set semantics for all contents.", "anchors": ["Kernel/Types/analyze.cpp: string_union, string_minus"]}
{"id": "C29", "title": "Cursor readers stay in bounds and read what is at the cursor", "statement": "read, read_line, read_int, read_double, read_word, skip_spaces, skip_whitespace, skip_line and skip_symbol only read inside the string and leave the cursor between its old position and the end; each consumes exactly the longest word, line, integer, decimal number, blank run or <...> symbol at the cursor. A failed read leaves the cursor where it was; only read_line moves to the end when no line feed is left. An integer that does not fit in an int overflows.", "quantifier": "all strings and all cursors from 0 to the length", "why_tests_cant": "Boundary positions of every reader on every string.", "anchors": ["Kernel/Types/analyze.cpp: read, read_line, read_int, read_double, read_word, is_whitespace, skip_spaces, skip_line, skip_whitespace, skip_symbol"]}
{"id": "C30", "title": "parse_string behaves as one flat input", "statement": "Any interleaving of pushes, reads of n characters, single-character reads, and prefix tests on a parse_string behaves as on the single string of remaining characters with pushes in front.", "quantifier": "all sequences of operations and all pushed strings", "why_tests_cant": "Chunk boundaries relative to reads are combinatorial.", "anchors": ["Kernel/Types/parse_string.cpp: parse_string_rep::advance, read, write, get_char, get_string, test"]}
{"id": "C31", "title": "hashmap is a finite map", "statement": "After any sequence of writes, reads, resets, resizes and joins, lookups return the last value written to the key or the default, contains tells whether the key is present, and N is the number of present keys, whatever the hash function.", "quantifier": "all operation sequences, all key types, all hash functions including colliding ones", "why_tests_cant": "Rehash boundaries and collision chains depend on the whole history.", "anchors": ["Kernel/Containers/hashmap.ipp: resize, contains, bracket_rw, bracket_ro, reset, join"]}
{"id": "C32", "title": "Iterating a hashmap or hashset visits every key exactly once", "statement": "Draining the iterator over a hashmap or hashset produces each present key exactly once and nothing else.", "quantifier": "all tables reachable by any operation sequence", "why_tests_cant": "Spooling across empty buckets depends on the bucket layout.", "anchors": ["Kernel/Containers/iterator.ipp: hashmap_iterator_rep, hashset_iterator_rep"]}
{"id": "C33", "title": "hashmap equality is extensional", "statement": "h1 == h2 holds exactly when both maps have the same keys with equal values; it is symmetric.", "quantifier": "all pairs of reachable hashmaps", "why_tests_cant": "Requires pairs with different histories and default-valued entries.", "anchors": ["Kernel/Containers/hashmap.ipp: operator=="]}
{"id": "C34", "title": "hashset is a finite set", "statement": "After any sequence of inserts and removals, contains is membership, N is the cardinality, copy is independent, and <=, <, == are inclusion, strict inclusion and equality.", "quantifier": "all operation sequences and hash functions", "why_tests_cant": "Same as hashmap.", "anchors": ["Kernel/Containers/hashset.ipp"]}
{"id": "C35", "title": "rel_hashmap is a stack of overlays", "statement": "Reading through a stack of overlays gives the value of the newest overlay that defines the key, otherwise the base; shorten discards the newest overlay, merge folds it into the layer below without changing any reading, and asking for the differences to a list of changes reports only real changes.", "quantifier": "all stacks, all operation sequences", "why_tests_cant": "Layer interactions for arbitrary depth.", "anchors": ["Kernel/Containers/rel_hashmap.ipp"]}
{"id": "C36", "title": "hashmap patches undo edits", "statement": "write_back records the old value exactly once, applying a patch with pre/post_patch yields the edited map, and invert of a patch against the map undoes it.", "quantifier": "all maps and all edit sequences", "why_tests_cant": "Undo laws over all histories.", "anchors": ["Kernel/Containers/hashmap_extra.ipp: write_back, pre_patch, post_patch, invert, changes"]}
{"id": "C37", "title": "Memoised functions return the function's value", "statement": "A hashfunc applied to any sequence of arguments returns at each call the value of the underlying function, which is evaluated at most once per distinct argument.", "quantifier": "all argument sequences, all functions", "why_tests_cant": "History dependent; evaluation count needs all sequences.", "anchors": ["Kernel/Containers/hashfunc.ipp"]}
{"id": "C38", "title": "array is a list with value growth", "statement": "After any sequence of appends, resizes and writes the elements are those of the list model and the buffer always has room; range, append, reverse, contains and == are the list operations; appending an array to itself doubles it.", "quantifier": "all operation sequences and arguments", "why_tests_cant": "Capacity thresholds and aliasing arguments.", "anchors": ["Kernel/Containers/array.ipp, array.hpp"]}
{"id": "C39", "title": "list operations", "statement": "List construction, N, copy, *, head, tail, reverse, remove, contains, indexing, last-item access and the prefix comparisons are the mathematical list operations, and those that return new lists modify no existing cell even when lists share tails. The in-place operators << and suppress_last and assignments through [] and access_last change exactly the lists that share the cell they write; appending a list to one it shares cells with makes a list without end, on which N never returns.", "quantifier": "all heaps, all finite lists in them, all sharing patterns", "why_tests_cant": "Aliasing through shared tails is not visible on single-list tests.", "anchors": ["Kernel/Containers/list.ipp, list.hpp"]}
{"id": "C40", "title": "merge_sort sorts stably", "statement": "After merge_sort the array is sorted with respect to any total preorder, is a permutation of the original, and equal elements keep their order.", "quantifier": "all arrays, all total preorders", "why_tests_cant": "Stability and permutation over all lengths with in-place merging through a half-sized buffer.", "anchors": ["Kernel/Algorithms/merge_sort.hpp: merge_sort_sub, merge_sort_leq"]}
{"id": "C41", "title": "Sorting by permutation", "statement": "The permutation returned by the permuting sort, applied to the original array, gives the sorted array.", "quantifier": "all arrays, all total preorders", "why_tests_cant": "Two arrays must be moved in lockstep for every merge pattern.", "anchors": ["Kernel/Algorithms/merge_sort.hpp: merge_sort_leq (two arrays), merge_sort_leq_permutation, permute"]}
{"id": "C42", "title": "Indexed search finds all matches", "statement": "string_searcher's search_all returns every position at which the pattern occurs, in increasing order and nothing else, search_next returns the first at or after a position; both are defined for every text and pattern.", "quantifier": "all texts, all patterns", "why_tests_cant": "Correctness relies on a rolling-hash identity for every power-of-two length; the case of a pattern longer than the text is out of bounds.", "anchors": ["Data/String/fast_search.cpp: string_searcher_rep, search_sub, search_next, search_all"]}
{"id": "C43", "title": "Longest common substring is longest", "statement": "get_longest_common returns ranges of equal text and no longer common substring exists.", "quantifier": "all pairs of strings", "why_tests_cant": "Maximality over all pairs.", "anchors": ["Data/String/fast_search.cpp: get_longest_common"]}
{"id": "C44", "title": "Reference counting is exact", "statement": "For any program that creates, copies, assigns (including self-assignment) and destroys handles, every object's count equals the number of live handles to it, no live handle dangles, and an object is freed exactly when its last handle dies.", "quantifier": "all handle programs without cycles", "why_tests_cant": "Requires all interleavings of copies and destructions.", "anchors": ["Kernel/Abstractions/classdef.hpp: CONCRETE_CODE, INC_COUNT, DEC_COUNT"]}
{"id": "C45", "title": "Small-object allocator hands out disjoint blocks", "statement": "For any sequence of allocations and matching frees, live blocks are pairwise disjoint, large enough, word aligned and inside memory obtained from the system; freed blocks are only reused for the same rounded size.", "quantifier": "all sequences of fast_alloc/fast_free/fast_new/fast_delete with matching sizes", "why_tests_cant": "Free-list reuse and chunk carving depend on the whole history.", "anchors": ["System/Memory/impl/fast_alloc.cpp: fast_alloc, fast_free, fast_new, fast_delete, enlarge_malloc"]}
{"id": "C46", "title": "Allocator accounting and reallocation", "statement": "fast_realloc preserves the common prefix of the contents, and mem_used is the number of bytes in live blocks.", "quantifier": "all allocation histories", "why_tests_cant": "Byte accounting for every history and size class, including the boundary between small and large blocks.", "anchors": ["System/Memory/impl/fast_alloc.cpp: fast_realloc, mem_used, compute_free"]}
{"id": "C47", "title": "Trees: equality and copy", "statement": "Equality of lolly_tree is structural equality and an equivalence relation; copy yields an equal tree sharing nothing mutable with the original; printing is total.", "quantifier": "all finite trees", "why_tests_cant": "Induction over trees.", "anchors": ["lolly/data/lolly_tree.hpp"]}
{"id": "C48", "title": "Path concatenation laws", "statement": "Concatenating a path with '.' changes nothing, with '..' removes the last component, concatenation of relative names is associative and keeps every component in order, and an absolute right operand wins.", "quantifier": "all url values reachable through the API", "why_tests_cant": "Structural recursion on both operands with many special roots.", "anchors": ["System/Classes/url.cpp: operator*, head, tail"]}
{"id": "C49", "title": "Path alternatives: or, expand, sort, factor", "statement": "u | v has exactly the alternatives of u followed by those of v (up to dropped duplicates), expand distributes concatenation over alternatives, sort permutes the alternatives.", "quantifier": "all url values", "why_tests_cant": "Set semantics over arbitrarily nested alternatives.", "anchors": ["System/Classes/url.cpp: operator|, expand, sort, factor"]}
{"id": "C50", "title": "delta is inverse to relative", "statement": "relative (a, delta (a, b)) == b, as documented in the header.", "quantifier": "all pairs of rooted or relative names", "why_tests_cant": "A law over all pairs of paths.", "anchors": ["System/Classes/url.cpp: delta, delta_sub, relative"]}
{"id": "C51", "title": "Path parsing and printing round trip", "statement": "Printing a parsed name and parsing it again gives the same url, and the components of a name are exactly the text between separators.", "quantifier": "all strings", "why_tests_cant": "Separators, empty components, brackets and wildcards in every arrangement.", "anchors": ["System/Classes/url.cpp: url_get_name, url_general, as_string"]}
{"id": "C52", "title": "UTF-16 string buffers", "statement": "After any sequence of appends, resizes and reserves a string_u16 has the contents of the list model, its capacity is at least its length and reserve never loses content; the units of a new string and those that appear by growing are 0.", "quantifier": "all operation sequences", "why_tests_cant": "History-dependent capacity.", "anchors": ["lolly/data/string_u16.cpp: string_u16_rep::resize, expand_or_shrink_by, reserve"]}
{"id": "C53", "title": "Output buffering", "statement": "Text printed between buffer and unbuffer is returned by unbuffer and does not reach the underlying stream; nesting works; counts of stream handles stay exact.", "quantifier": "all sequences of prints, buffers and unbuffers, all texts", "why_tests_cant": "Nesting and interleaving; embedded NUL characters.", "anchors": ["System/IO/tm_ostream.cpp: buffer, unbuffer, redirect, write, operator<<"]}
{"id": "C54", "title": "Task timers", "statement": "Nested starts of the same task are counted once from the outermost start to the outermost stop; the cumulated time and number of invocations are the sums over completed outermost intervals.", "quantifier": "all sequences of start/stop/reset on any tasks with a monotone clock", "why_tests_cant": "Interleavings of nested tasks.", "anchors": ["lolly/system/timer.cpp: timer_start, timer_cumul, timer_reset"]}
{"id": "C55", "title": "Locale names round trip", "statement": "Every language with a locale maps to a locale that maps back to the same language, and every string maps to some known language.", "quantifier": "all strings", "why_tests_cant": "A total-function claim over all strings, closed under truncation rules.", "anchors": ["System/Language/locale.cpp: locale_to_language, language_to_locale"]}
{"id": "C56", "title": "Opaque boxes are typed", "statement": "Opening a box at the type it was closed at returns the value, opening at another type raises an error, and two boxes are equal iff they have the same type and equal contents (or both are nil).", "quantifier": "all types and values", "why_tests_cant": "Quantifies over types.", "anchors": ["Kernel/Abstractions/blackbox.hpp, basic.cpp: new_type_identifier"]}
{"id": "C57", "title": "File saving and loading", "statement": "After a successful save, loading the same path returns the saved bytes, and appending extends the content; other files are untouched; urls that are not single local names are refused without touching the file system.", "quantifier": "all contents and all url values, over an abstract file system", "why_tests_cant": "Content-independence and frame over all files.", "anchors": ["System/Files/file.cpp: load_string, save_string, append_string, is_local_and_single, find_the_first_exist"]}
{"id": "C58", "title": "Subprocess pipes transfer all bytes", "statement": "Whatever the sizes of partial reads and writes, the bytes delivered to the child are exactly the input string in order and the bytes collected are exactly the bytes the child produced; every descriptor is closed exactly once.", "quantifier": "all inputs and all schedules of partial reads and writes", "why_tests_cant": "Partial transfer schedules are chosen by the kernel.", "anchors": ["Plugins/Unix/unix_sys_utils.cpp: _background_write_task, _background_read_task, _ts_string"]}
{"id": "C59", "title": "Shell escaping protects arguments", "statement": "After escape_sh a string is read back by a POSIX shell as the single original word.", "quantifier": "all byte strings", "why_tests_cant": "Every metacharacter in every context.", "anchors": ["Kernel/Types/analyze.cpp: escape_sh"]}
{"id": "C60", "title": "Hashes agree with equality", "statement": "Strings, UTF-16 strings, arrays, tuples, integers, floating point numbers and pointers that compare equal have equal hashes; the hash is a defined function of the value only, whatever the history, capacity or sharing of the object, and fits in an int.", "quantifier": "all pairs of equal values, all element types whose hash agrees with their ==, all programs that made them", "why_tests_cant": "Quantifies over all pairs of equal values with different histories.", "anchors": ["Kernel/Types/string.cpp: hash", "Kernel/Containers/array.ipp: hash, operator==", "Kernel/Containers/ntuple.hpp: hash, operator==", "Kernel/Abstractions/basic.hpp: hash", "Kernel/Abstractions/basic.cpp: hash", "lolly/data/string_u16.hpp: hash"]}
{"id": "C61", "title": "Floating-point recogniser agrees with the grammar", "statement": "is_double accepts exactly the decimal floating-point literals (sign, digits, optional fraction, optional exponent with digits) and is safe to call on every string.", "quantifier": "all byte strings", "why_tests_cant": "Malformed texts are unbounded; out-of-range reads are silent.", "anchors": ["Kernel/Types/analyze.cpp: is_double", "Kernel/Types/string.cpp: is_double"]}
{"id": "C62", "title": "Searching for several patterns at once", "statement": "search_forwards with an array of patterns returns the least position >= pos at which one of the non-empty patterns occurs, or -1 when there is none, and never reads outside the text.", "quantifier": "all pattern arrays, texts and positions from 0 to the length of the text", "why_tests_cant": "Completeness over all texts; the out-of-range read at the end of the text is silent.", "anchors": ["Kernel/Types/analyze.cpp: search_forwards (array<string>, int, string)"]}
{"id": "C63", "title": "Prefix, suffix and character tests", "statement": "starts and ends tell exactly whether a string begins or finishes with another, remove_prefix and remove_suffix cut it off when it is there and change nothing otherwise, index finds the first position of a character (-1 if absent), contains is membership and find_non_alpha finds the nearest non-letter after or before a position.", "quantifier": "all strings and characters", "why_tests_cant": "Boundary cases (empty, equal, longer prefix) over all strings.", "anchors": ["Kernel/Types/analyze.cpp: starts, ends, remove_prefix, remove_suffix, index, contains, find_non_alpha"]}
{"id": "C64", "title": "Escaping loses no information", "statement": "escape_generic and escape_spaces are injective and put an escape character before each protected character; escape_verbatim leaves no control character and keeps texts without them; dos_to_better removes exactly the carriage returns.", "quantifier": "all byte strings", "why_tests_cant": "Injectivity relates all pairs of strings.", "anchors": ["Kernel/Types/analyze.cpp: escape_generic, escape_verbatim, escape_spaces, dos_to_better"]}
{"id": "C65", "title": "Tab expansion", "statement": "convert_tabs_to_spaces replaces each tab by the spaces needed to reach the next multiple of the tab width, columns being counted from the last line feed, changes nothing else, and is defined for every tab width.", "quantifier": "all strings, all tab widths >= 0", "why_tests_cant": "Column arithmetic over unbounded lines with any mixture of tabs.", "anchors": ["Kernel/Types/analyze.cpp: convert_tabs_to_spaces"]}
{"id": "C66", "title": "Binary integers are read big-endian", "statement": "parse reads the signed or unsigned 8, 16 and 32 bit integer stored big-endian at the cursor and advances the cursor by its size; the array version reads consecutive values.", "quantifier": "all byte strings and cursors with enough bytes left", "why_tests_cant": "Sign and carry behaviour over all byte combinations.", "anchors": ["Kernel/Types/analyze.cpp: parse"]}
{"id": "C67", "title": "Spell-checker encodings round trip", "statement": "Converting Spanish or German text to the spell checker's encoding and back gives the text back.", "quantifier": "all byte strings", "why_tests_cant": "Interactions of adjacent characters over unbounded strings.", "anchors": ["Kernel/Types/analyze.cpp: ispanish_to_spanish, spanish_to_ispanish, igerman_to_german, german_to_igerman"]}
{"id": "C68", "title": "Trees: joining, slices, appending, assignment", "statement": "t1 * t2 has the subtrees of t1 followed by those of t2 (an atom counting as a single subtree) with the operator of t1, or of t2 when t1 is an atom; t (i, j) has the subtrees i to j-1; t << u adds u at the end; t[i]= u replaces one subtree. No other tree changes its value.", "quantifier": "all heaps of trees with any sharing, all finite trees in them", "why_tests_cant": "Sharing patterns and trees are unbounded.", "anchors": ["lolly/data/lolly_tree.hpp: operator*, operator(), operator<<, operator[]"]}
{"id": "C69", "title": "check_output returns the output of the command", "statement": "check_output (cmd, result, ...) returns with result equal to everything the command wrote to the selected stream and with the exit status; if the command cannot be started it returns -1 and leaves result alone. It always returns.", "quantifier": "all outputs, all ways in which the output arrives in pieces and all pauses between them, all outcomes of starting the command and waiting for it", "why_tests_cant": "Outputs are unbounded and the timing of their pieces is not controlled by a test; the buffer limit and the pauses show only for particular sizes and delays.", "anchors": ["lolly/system/subprocess.cpp: check_output"]}
{"id": "C70", "title": "Digests of files", "statement": "md5_hexdigest, sha224_hexdigest and sha256_hexdigest of a url that names a readable local file return the MD5, SHA-224 and SHA-256 digest of its bytes in lower-case hexadecimal, also for empty files; for every other url and whenever reading fails they return \"\", never a wrong digest. After the call the file is closed and the memory is released.", "quantifier": "all file systems, file contents, urls, and all ways in which the operating system refuses or shortens reads", "why_tests_cant": "The contents and the points at which reading fails are unbounded; a wrong digest after a partial read or a leaked file does not show in the returned value of a test.", "anchors": ["lolly/hash/md5.cpp: md5_hexdigest", "lolly/hash/sha.cpp: sha_hexdigest, sha224_hexdigest, sha256_hexdigest"]}
{"id": "C71", "title": "Trees with named children are shared graphs and dictionaries", "statement": "Making hash trees, taking and adding children and setting labels does what the same operations do on graphs with named edges, where a child is shared by all its parents; t (k1)...(kn) used as a dictionary reads the last label set for the word k1...kn in that dictionary, or the default value, and contains and N tell which longer words are known; t (k) makes the child that is missing, and no program gets a tree without a node (is_nil is false).", "quantifier": "all key types with a correct ==, all hash functions (also constant ones), all programs with fewer than 2^30 different keys", "why_tests_cant": "Sharing, cycles and colliding keys have to be handled for all programs.", "anchors": ["Kernel/Containers/hashtree.hpp, hashtree.ipp: hashtree_rep, hashtree, add_child, add_new_child, set_label, get_label, contains, operator(), N"]}
{"id": "C72", "title": "Names, extensions and places of files", "statement": "suffix (u) is the extension of the last component of u (the text after its last dot, unless the dot is at the start or the end of the name), basename (u) is the rest of that component, and a query behind it does not matter; glue puts a text behind the last component and unglue takes it away again; unblank only takes away a slash at the end; reroot and unroot only change the root; descends (u, b) holds exactly when every alternative of u lies at or below an alternative of b.", "quantifier": "all urls made of a root or none, directories and a last name; all names, queries and glued texts; all alternatives of such urls", "why_tests_cant": "The names, the depth of the directories and the number of alternatives are unbounded; tests look at a few names.", "anchors": ["System/Classes/url.cpp: suffix, basename, glue, unglue, unblank, reroot, unroot, descends"]}
{"id": "C73", "title": "A started command gets its descriptors and arguments", "statement": "A command started by unix_system or evaluate_system finds input i at descriptor fd_in[i] and output i at fd_out[i], holds no other end of the pipes, and otherwise has the open files of the caller; in its arguments $$i is replaced by the descriptor of input i when fd_in[i] is negative, and the caller's array of arguments is not changed; evaluate_system returns the exit status followed by the outputs.", "quantifier": "all tables of open files of the caller, all numbers of inputs and outputs, all descriptors asked for, all arguments", "why_tests_cant": "Which descriptors the pipes get depends on the state of the whole process, and the files of the child cannot be seen by a test of the caller; collisions of numbers are found only by looking at all of them.", "anchors": ["Plugins/Unix/unix_sys_utils.cpp: unix_system, _pipe_t, _file_actions_t", "System/Misc/sys_utils.cpp: evaluate_system"]}
{"id": "C74", "title": "Directories are made, removed and listed as named", "statement": "mkdir makes the directories named by the alternatives of a url, with the missing directories above them, and changes nothing else; make_dir does the same and returns; rmdir removes what stands at these places and below and nothing else; chdir goes to the directory or throws; read_directory gives exactly the names of the entries and tells when there is no directory; subdirectories gives exactly the directories at and below a place that are not hidden.", "quantifier": "all disks (trees of files and directories of any depth), all local urls and alternatives of such urls, all refusals by the operating system", "why_tests_cant": "A test sees one tree and cannot check that nothing else on the disk has changed; names and depth are unbounded.", "anchors": ["System/Files/file.cpp: is_directory, mkdir, make_dir, rmdir, chdir, read_directory, subdirectories"]}
{"id": "C75", "title": "Addresses, requests and responses", "statement": "The text protocol://host/path of the web is read as a url that is printed back as the same text, and uri_host and uri_path give its host and its path. http_get and http_head send one request with the text of the url, exactly the headers that are given and the user agent named by them; the response has the status, text, url, time and headers of the reply under their labels, and a header is found by its name in lower case. download writes the body to the file that is named and to no other.", "quantifier": "all web addresses, all hashmaps of headers that a program makes, all networks (functions from requests to replies), all file systems", "why_tests_cant": "A test talks to one server; that no header is added, lost or mixed up depends on all hashmaps, hash functions and orders of iteration.", "anchors": ["lolly/data/uri.cpp: uri_host, uri_path", "lolly/io/http.hpp: http_label, http_response_init, http_response_ref, http_response_set", "lolly/io/http.cpp: response_to_tree, as_cpr_header, http_get, http_head, download"]}
{"id": "C76", "title": "Temporary files are new; the current directory has a url", "statement": "url_temp_dir makes the directory /tmp/.lolly/<process id> at the first call and always gives the same url. url_temp gives a url in this directory at which nothing stands, whose name is made of a fresh uuid and the suffix, and changes nothing else on the disk. url_pwd gives the url of the current directory. The urls are printed as the paths of the files, and these texts are read as the urls again.", "quantifier": "all disks, changed by anybody between the calls, all processes, uuids and suffixes, all sequences of calls, all current directories", "why_tests_cant": "Collisions of uuids, full directories and changes by other processes do not happen in tests.", "anchors": ["System/Files/file.cpp: url_temp, url_temp_dir_sub, url_temp_dir, file_size", "lolly/hash/uuid.cpp: uuid_make", "System/Classes/url.cpp: url_pwd"]}
{"id": "C77", "title": "Tests of files agree with each other and with the operating system", "statement": "is_directory, is_regular and is_symbolic_link say what the operating system says of the path. is_of_type is true exactly when the file is there and satisfies every letter; the order and repetition of letters do not matter, and the letters f, d and l are these three tests. is_newer compares the times of change and is a strict order. file_size and last_modified give size and time, or -1 for a missing file, and is_newer agrees with last_modified. Urls that are not local are nothing of all this.", "quantifier": "all answers of the operating system, all urls and all strings of letters", "why_tests_cant": "Sizes beyond 2 GiB, times after 2038, and the combinations of letters, kinds of files and rights are not met in tests.", "anchors": ["System/Files/file.cpp: is_directory, is_regular, is_symbolic_link, is_newer, is_of_type, file_size, last_modified"]}
{"id": "C78", "title": "Urls of a class are the urls with its protocol, and a file url has a concrete name", "statement": "file_url (s), http_url (s), https_url (s) and ftp_url (s) are the urls read from protocol://s, blank_url (s) from //s. concretize gives the absolute name with the parts of a file url, and reading this name gives the url with the default root. is_rooted_blank is true exactly when every alternative begins at the blank root. url_system, url_unix and url_standard of a directory and a name give the product of the two.", "quantifier": "all texts, all environments, all kinds of reading", "why_tests_cant": "The constructors and the scanner have separate code; that they agree is a claim about all texts.", "anchors": ["System/Classes/file_url.cpp: file_url, concretize, url_unix", "System/Classes/http_url.cpp", "System/Classes/https_url.cpp", "System/Classes/ftp_url.cpp", "System/Classes/blank_url.cpp: blank_url, is_rooted_blank", "System/Classes/url.cpp: url_system, url_standard, url_get_name"]}
{"id": "C79", "title": "Resources are found by name as long as they exist; shared libraries are loaded once", "statement": "A name stands for nothing or for an existing resource with this name, never for one that was deleted. make gives the existing resource, unchanged, or makes a new one, for which the name then stands. A failed load of a shared library changes nothing. Deleting a resource takes its name away and nothing else. Every existing resource is found by its name, so that there is one for each name.", "quantifier": "all sequences of making, constructing, failing and deleting, all names, hash functions and contents", "why_tests_cant": "Orders of construction and deletion of resources with equal names, and failures in between, are not exercised.", "anchors": ["Kernel/Abstractions/resource.hpp: rep, resource_ptr, RESOURCE, make", "lolly/system/shared_lib.cpp: shared_lib_rep, load_shared_library"]}
{"id": "C80", "title": "What is printed of a container tells it apart", "statement": "Printing any nesting of numbers, booleans, characters, strings, arrays, lists and tuples to a stream writes [ x, y, z ], and [ ] for what is empty; hash maps write each entry key->value once, hash sets each element once, between braces; an iterator writes each key once. Two values of the same type with the same text are the same.", "quantifier": "all types built from these, all values, all hash functions and all sequences of operations that make the hash tables", "why_tests_cant": "That no two values share a text is a statement about all pairs of values; nested containers and strange strings are not tested.", "anchors": ["Kernel/Containers/array.ipp: operator<<", "Kernel/Containers/list.ipp: operator<<", "Kernel/Containers/ntuple.hpp: operator<<", "Kernel/Containers/hashmap.ipp: operator<<", "Kernel/Containers/hashset.ipp: operator<<", "Kernel/Containers/iterator.ipp: operator<<"]}
{"id": "C81", "title": "Indented output", "statement": "After LF and HRULE the cursor is at the indentation, which is two columns for each INDENT that is not yet undone by UNINDENT on this stream; HRULE fills the line up to column 78. A relative hash map is printed layer by layer with rules between the layers.", "quantifier": "all sequences of texts and controls, all depths", "why_tests_cant": "The indentation is a hidden global variable; no test prints more than one line.", "anchors": ["Kernel/Abstractions/basic.cpp: operator<< (tm_ostream&, display_control)", "Kernel/Containers/rel_hashmap.ipp: operator<<"]}
{"id": "C82", "title": "Commands on Windows get their pipes and the caller keeps its descriptors", "statement": "When win_system starts a command, each input and output has a pipe of its own whose end the command finds under the descriptor asked for (or the one that replaces $$i), and no other ends; the caller's descriptors are as before and in the end nothing stays open; only open descriptors are closed. All of each input is sent and its end is seen; the value is the status of the command and the outputs are all that it wrote; -1 tells that it could not be started.", "quantifier": "all lists of descriptors, all tables of open files, all choices of descriptors by the system, all results of writing and reading", "why_tests_cant": "Descriptor numbers, failing calls and the speed of the command are chosen by the system; a lost descriptor shows only later.", "anchors": ["Plugins/Windows/spawn.cpp: Channel, bkgread, spawn_system", "Plugins/Windows/win_sys_utils.cpp: win_system"]}
{"id": "C83", "title": "Ideographs, ranges of characters and UTF-16", "statement": "is_cjk_unified_ideographs and has_cjk_unified_ideographs say of any document whether all, or some, of its characters are CJK unified ideographs; unicode_get_range names the range a character lies in and gives the empty name to all others; converting correct text from UTF-8 to UTF-16 and back, or from wide characters to UTF-8, gives the same text and never overruns a buffer.", "quantifier": "all texts, all character numbers, all sequences of Unicode characters, all conversion libraries that follow the standards on correct text", "why_tests_cant": "The tests try four short texts; whether every number of the block is recognised, whether buffers suffice for every text and what becomes of unusual marks needs all texts.", "anchors": ["lolly/data/unicode.cpp: is_cjk_unified_ideographs, has_cjk_unified_ideographs, unicode_get_range, utf16_to_utf8, wchar_to_utf8, utf8_to_utf16"]}
{"id": "C84", "title": "Kinds of urls", "statement": "is_rooted says whether every alternative of a url starts at a root (of the given protocol, of the web), is_name whether it consists of names only, is_rooted_name and is_name_in_path whether it is such a name at a root, or at no or the default root. A product with a rooted url on the left starts at the same roots, one with an absolute url on the right is rooted, and one of relative urls is relative. Names are read as relative urls, names that begin with / at the default root, names with a protocol at the root of that protocol.", "quantifier": "all urls, with any nesting of alternatives; all products; all texts of these forms", "why_tests_cant": "Tests try a few fixed names without alternatives; that no product can lose or gain a root needs induction over the product.", "anchors": ["System/Classes/url.cpp: is_rooted, is_rooted_web, is_name, is_rooted_name, is_name_in_path, operator*", "System/Classes/url.hpp: url"]}
{"id": "C85", "title": "Environment, user and clock", "statement": "After set_env (v, w), get_env (v) gives w, every other variable is as before, and commands started later see w. A variable that is not set is read as the empty string. get_user_name is the text before the first comma of the user's comment and get_user_login the name of their account. raw_time and texmacs_time count whole milliseconds: the time since the start differs from the true one by less than a millisecond and does not decrease if the clock does not.", "quantifier": "all environments, names and values without NUL; all entries of the password file; all readings of the clock", "why_tests_cant": "Tests set one variable and read it back, and cannot choose the user or the clock; values with empty parts, names that cannot be set and users without an entry are not tried.", "anchors": ["System/Misc/sys_utils.cpp: get_env, set_env, get_user_login, get_user_name", "Plugins/Unix/unix_sys_utils.cpp: unix_get_login, unix_get_username", "System/Classes/tm_timer.cpp: raw_time, texmacs_time"]}
{"id": "C86", "title": "Rounding and comparing doubles", "statement": "tm_round gives the integer nearest to a double, of two equally near ones the larger one, and keeps the order of its arguments; as_int gives this integer as an int. min and max give the smaller and the larger of two numbers, whatever their order.", "quantifier": "all doubles in the binary format of 64 bits, with NaN and the infinite ones; all ints", "why_tests_cant": "Rounding is wrong for one double below 1/2 and for odd integers above 2^52 only, among 2^64 arguments; NaN is not tried.", "anchors": ["Kernel/Abstractions/basic.hpp: as_int, tm_round", "Kernel/Abstractions/minmax.hpp: min, max"]}
{"id": "C87", "title": "Lengths are read as a number and a unit", "statement": "parse_length reads a number followed by a unit of lower-case letters, or by none: it gives the number that as_double reads from exactly this part of the text, and the unit. For any other text it gives 0 and \"error\", and it is safe on every text.", "quantifier": "all texts", "why_tests_cant": "Tests read a few lengths; exponents, signs without digits and units with other characters are not tried.", "anchors": ["Kernel/Types/analyze.cpp: parse_length", "Kernel/Types/string.cpp: is_double"]}
{"id": "C88", "title": "Latin 2 and Cork", "statement": "il2_to_cork and cork_to_il2 change the encoding of a text between ISO 8859-2 and Cork: the result has the same number of characters, every character that both encodings have is kept, and converting such a text there and back gives it again.", "quantifier": "all texts", "why_tests_cant": "There is no test; a table of 128 entries is right only if every entry is, and one wrong byte shifts all that follow.", "anchors": ["Kernel/Types/analyze.cpp: il2_to_cork, cork_to_il2"]}
{"id": "C89", "title": "Names of files on Windows", "statement": "When lolly is configured for Windows, c:\\a\\b, \\\\server\\a\\b, relative names, names with patterns, lists of names with ';' and file:///c:/a are read as the url that they denote, with '/' and '\\' alike and whatever is in the environment; '~' and '$V' at the beginning stand for the directory that the environment names; printing the url for the operating system gives the text with backslashes, and reading that gives the url again; head and products stay on the drive.", "quantifier": "all texts built from names without special characters, both configurations (OS_WIN and OS_MINGW), all environments, all lists", "why_tests_cant": "The tests run on one system; names, separators and lists are unbounded, and the cases that fail (servers with one letter, \\a\\b, file:///c:, '..' beyond a drive, names that start with a negative character) are not tested.", "anchors": ["System/Classes/url.cpp: url_general, url_default, url_mingw_default, url_get_name, url_get_atom, url_get_path, heuristic_is_path, heuristic_is_default, heuristic_is_mingw_default, is_special_root, is_semi_root, operator*, head, as_string"]}
{"id": "C90", "title": "Doubles as texts", "statement": "as_string of a double is the decimal number with six digits that is nearest to it, written in one way (plain from 0.0001 up to a million, with an exponent otherwise), fits the buffer and is a text that is_double accepts; as_double gives the double nearest to the decimal number at the start of the text, or infinity from half way beyond the largest double on; numbers with at most six digits survive reading and printing; a double is read back from its text.", "quantifier": "all doubles (finite, subnormal, zero, infinite, NaN), all decimal numbers of any length with any exponent, all texts before and after them", "why_tests_cant": "There are 2^64 doubles and infinitely many texts; nearest, ties, overflow, subnormal numbers and the six-digit limit cannot be sampled, and the doubles that do not come back are those with more digits.", "anchors": ["Kernel/Types/string.cpp: as_string(double), as_double", "System/IO/tm_ostream.cpp: operator<<(double), operator<<(float)"]}
{"id": "C91", "title": "Numbers in texts", "statement": "read_double returns the double nearest to the decimal number at the cursor and moves the cursor behind it, or returns false with 0.0 and leaves the cursor; parse_length returns the double nearest to its number and the unit; both read the texts that as_string prints for doubles.", "quantifier": "all texts, all cursors, all decimal numbers, all doubles, all units", "why_tests_cant": "The texts, the numbers and the doubles are unbounded; that printed numbers from a million on are not read, because of the plus in the exponent, depends on the interplay of three functions that are tested apart.", "anchors": ["Kernel/Types/analyze.cpp: read_double, parse_length", "Kernel/Types/string.cpp: as_double, as_string(double)"]}
{"id": "C92", "title": "Trees: questions, values, sharing and data", "statement": "Every lolly_tree is exactly one of atomic, compound and generic; == and != with an operator, is_func, is_bool, is_int, is_double, is_string, as_bool, as_int, as_long_int, as_double and to_string are total and depend on the value of the tree only; a tree made from a string or an array shares it, so that it changes with it and with nothing else; the data attached to a tree stays with it until it is overwritten, and copy copies it.", "quantifier": "all trees, operators, texts, all heaps with any sharing, all programs that make, change and join trees and write data", "why_tests_cant": "Sharing between variables and trees can be arbitrary and programs are unbounded; reading the wrong member of the union is undefined and not visible in a test.", "anchors": ["lolly/data/lolly_tree.hpp: is_generic, operator==, operator!=, is_func, is_bool, is_int, is_double, is_string, as_bool, as_int, as_long_int, as_double, to_string, lolly_tree_rep::data, A, AR"]}
{"id": "C93", "title": "The session: arguments, the name of the user, the language", "statement": "On Windows an object of class args makes argc and argv the arguments of the program in UTF-8, followed by NULL, for as long as it lives, and gives all memory back; get_user_name returns the name of the user; get_locale_language returns the language of the user on Windows and macOS, always the same one.", "quantifier": "all lists of arguments in Unicode, all nestings of objects and changes of argc and argv in between, all names, all initial contents of variables, all identifiers of languages", "why_tests_cant": "The code runs on systems that the tests of this project do not cover, and depends on a variable that is not initialized; the 65536 identifiers of languages and all texts cannot be enumerated on a real system.", "anchors": ["lolly/system/args.hpp, args.cpp: args, fix_args", "Plugins/Windows/win_sys_utils.cpp: win_get_username", "System/Language/locale.cpp: windows_locale_to_language, get_mac_language, get_locale_language"]}
{"id": "C94", "title": "Running a command line", "statement": "call starts one command with exactly the words of the line, as a shell reads them, and returns its status; arguments quoted by escape_sh arrive unchanged; an empty line starts nothing and gives an error; an error can be told from the status of a command; nothing stays in memory.", "quantifier": "all command lines, all lists of arguments, all answers of wordexp that fit its contract, all statuses", "why_tests_cant": "Tests run a few harmless commands; which arguments arrive changed, which lines run nothing, and what is leaked depends on all characters and on failures of memory.", "anchors": ["lolly/system/subprocess.hpp, subprocess.cpp: call", "Kernel/Types/analyze.cpp: escape_sh"]}
{"id": "C95", "title": "Function objects: promises and unary functions", "statement": "A promise or unary function calls its object, however often it was copied, assigned or compared before; copies share the object and its members; == tells whether two handles have the same object; a null handle prints (null) and is detected when it is called; an object lives exactly as long as a handle refers to it.", "quantifier": "all classes of function objects, all programs that make, copy, assign, destroy, call, compare and print handles, in any order", "why_tests_cant": "When an object is deleted depends on the whole history of copies, also of those made for parameters; reading a deleted object often goes unnoticed, as in the tests of the project itself.", "anchors": ["Kernel/Containers/promise.hpp: promise, operator==, operator<<", "Kernel/Containers/unary_function.hpp: unary_function", "Kernel/Abstractions/classdef.hpp: ABSTRACT_NULL_TEMPLATE, ABSTRACT_NULL_TEMPLATE_2"]}
{"id": "C96", "title": "Allocation through jemalloc and mimalloc", "statement": "Built on jemalloc or mimalloc, the allocation functions give blocks and arrays that are aligned, disjoint (also blocks of size zero) and keep their contents until they are freed, through reallocation and resizing too; programs behave as they do with the project's own allocator; nothing leaks; when memory is refused the program stops rather than going on with a null pointer; mem_used tells the memory in use.", "quantifier": "all programs that allocate, write, reallocate, resize and free blocks and arrays in any order, all addresses the allocator may answer, both allocators, before and after mem_init", "why_tests_cant": "The addresses depend on the allocator and on the whole history; overlapping or lost blocks show up far away, and refusals of memory do not happen in tests.", "anchors": ["System/Memory/impl/je_malloc.cpp: fast_alloc, fast_free, fast_realloc, fast_new, fast_delete, mem_used", "System/Memory/impl/mi_malloc.cpp: fast_alloc, fast_free, fast_realloc, fast_new, fast_delete, mem_used, mem_init, mem_err_handler", "System/Memory/fast_alloc.hpp: tm_new_array, tm_resize_array, tm_delete_array"]}
{"id": "C97", "title": "Reports of writes outside blocks with DEBUG_ON", "statement": "With DEBUG_ON, deleting a block or an array reports that something was written directly in front of it or behind it; when only its own bytes were written nothing is reported and the memory is given back with its right size; the report itself does no harm.", "quantifier": "all sizes, all element sizes and numbers, all previous contents of the memory, all damage to the bytes around the block, blocks at the end of a chunk and elsewhere", "why_tests_cant": "Which damage is noticed depends on the position of each byte relative to words and on the values of all three copies of the size; the tests never define DEBUG_ON.", "anchors": ["System/Memory/impl/fast_alloc.cpp: fast_new, fast_delete, alloc_check, break_stub (DEBUG_ON)", "System/Memory/fast_alloc.hpp: tm_new_array, tm_delete_array (DEBUG_ON)"]}
{"id": "C98", "title": "Relative hash maps that share layers", "statement": "Relative hash maps may be copied and built over each other and over hash maps. Reading one always ends and gives the value of the newest layer that has the key at the time of reading; extend changes no reading of any map; a write is seen in exactly the maps in which the written layer is met first; merge keeps the readings of the map and gives them to the map below; a map with a new layer over others does not change what they read.", "quantifier": "all programs on any number of relative hash maps and hash maps in any sharing, all keys, values and hash functions", "why_tests_cant": "Sharing makes the effect of each operation depend on all others; a cycle would make a reading run for ever, and no number of tests shows that none can arise.", "anchors": ["Kernel/Containers/rel_hashmap.hpp: rel_hashmap", "Kernel/Containers/rel_hashmap.ipp: operator [], operator (), extend, shorten, merge, change, find_changes, find_differences"]}
{"id": "C99", "title": "A command runs to its end whatever the order of the threads", "statement": "Whatever the order in which the caller, its writing and reading threads and the command take steps, and however little the pipes hold: unix_system returns if the command by itself ends, its value and outputs are those of the command by itself on these inputs, it does not touch memory that it has freed, and the caller is not ended by a signal.", "quantifier": "all commands (as automata that read and write), all inputs, numbers of channels and capacities of pipes, all interleavings", "why_tests_cant": "The scheduler chooses the interleaving; a deadlock or a use of freed memory may show in none of the runs of a test.", "anchors": ["Plugins/Unix/unix_sys_utils.cpp: unix_system, _background_write_task, _background_read_task"]}
{"id": "C100", "title": "A command on Windows runs to its end whatever the order of the threads", "statement": "On Windows, too, whatever the order in which the caller, its reading threads and the command take steps, and however little the pipes hold: unix_system returns if the command by itself ends, its value and outputs are those of the command by itself on these inputs, and no string is used by two threads at once or after it was freed.", "quantifier": "all commands (as automata that read and write), all inputs, numbers of channels, capacities of pipes and sizes of writes, all interleavings", "why_tests_cant": "The scheduler chooses the interleaving, and a deadlock needs inputs longer than a pipe and a command with a certain order of reading.", "anchors": ["Plugins/Windows/win_sys_utils.cpp: unix_system", "Plugins/Windows/spawn.cpp: bkgread, Channel::read, Channel::wait, spawn_system::wait"]}
{"id": "C101", "title": "A file is found in the first directory of a search path that has it", "statement": "For a text dir1:dir2:... and the name of a file, the product of the two urls that are read from them can be loaded, saved and appended to as a file: loading gives the content of the file in the first directory where it exists and fails if it exists in none; saving and appending change this file only, or make the file in the last directory if it exists in none. The same holds of $V/name when the variable V holds dir1:dir2:..., and of ~/name with HOME.", "quantifier": "all non-empty lists of relative or absolute directories with plain names, all relative names, all file systems, contents and environments", "why_tests_cant": "The result depends on the whole list, on repeated directories and on which of the files exist; reading, products, alternatives and the file system work together.", "anchors": ["System/Classes/url.cpp: url_general, operator*, operator|, expand", "System/Files/file.cpp: find_the_first_exist, load_string, save_string, append_string"]}
{"id": "C102", "title": "Files and directories are one disk", "statement": "On a local disk, save_string, append_string, append_to, remove, move, copy, mkdir, make_dir, rmdir and chdir, in any order, act like updates of one map from places to files and directories: saving puts the content at the place of the url and changes nothing else, moving takes it from one place to the other, removing a directory clears the places below, and so on. Relative urls mean places below the current directory. Afterwards load_string gives what stands at the place, is_regular, is_directory and file_size tell what it is and how long, and read_directory lists a file that was saved and does not list one that was removed. If the system refuses an operation or cuts it off, the disk stays in order and nothing changes at other places: a file to be written is as before or holds a part of what was to be written from its start, and a file is moved wholly or not at all.", "quantifier": "all disks, all finite programs of these operations on urls a/b/c, /a/b/c and file:///a/b/c, all contents, all answers of the system", "why_tests_cant": "Tests look at one file or one directory; that files, directories, the current directory and paths that lead to the same place agree after every sequence of operations concerns all programs and all trees.", "anchors": ["System/Files/file.cpp: load_string, save_string, append_string, append_to, remove, move, copy, mkdir, make_dir, rmdir, chdir, read_directory, is_regular, is_directory"]}
{"id": "C103", "title": "Stack traces tell the innermost frames", "statement": "get_stacktrace (n) gives a title and then one line for each of the innermost n frames of the stack in their order, with the name of the frame or null, or one line that says there are none; texts are equal only if the names are, and everything that was allocated for it is released. This holds for every n.", "quantifier": "all stacks, names of frames and bounds", "why_tests_cant": "The stack and the names are those of the running program; a test sees one stack and one bound, and the extreme bound wraps to an array without cells.", "anchors": ["System/Misc/sys_utils.cpp: lolly::get_stacktrace"]}
{"id": "C104", "title": "Temporary files keep what is written to them", "statement": "A program that asks url_temp for any number of temporary files and saves a text to each gets different urls, and in the end load_string gives for each url the text that was saved there. Files and directories that were there before are still there with their contents, and nothing outside the temporary directory of the process changes. This holds even if the generator of uuids repeats itself, as long as a name is left. If the system refuses something or cuts it off, texts may be missing or cut, but no file or directory that was there, nor an earlier temporary file, is lost or changed.", "quantifier": "all processes, generators of uuids, disks, sequences of suffixes and texts of at most 2147483647 bytes, all answers of the system", "why_tests_cant": "Tests ask for one temporary file with a generator that does not repeat; that no sequence of requests overwrites an earlier file concerns all sequences, all disks and all generators.", "anchors": ["System/Files/file.cpp: url_temp, url_temp_dir, save_string, load_string", "lolly/hash/uuid.cpp: uuid_make"]}
