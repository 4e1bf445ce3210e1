# Formal model of lolly in Rocq (Coq 8.16.1)

## Approach

* `/verif/rocq/theories/Base.v` – the outcome type, strings, checked indexing.
* `/verif/rocq/theories/Model/*.v` – executable Gallina model, no proofs. Every
  definition cites the file and lines of /repo it models and states simplifications.
* `/verif/rocq/theories/Spec/*.v` – small specifications, written without looking inside the model.
* `/verif/rocq/theories/Proofs/*.v` – lemmas.
* `/verif/rocq/theories/Props/Cxx.v` – one file per property: theorems closed by `exact`,
  non-vacuity examples, `Print Assumptions`.

Conventions of the model:

* a string is a list of bytes (`ascii`); `char` is signed (x86), so a byte >= 128 compares as
  negative where the code compares `char`s; `int` is 32-bit two's complement;
* undefined behaviour (read or write outside an object, signed overflow where the property is
  about it, division by zero) is the outcome `UB`; exceptions are `Throw`; loops that are not
  structurally decreasing run on fuel and return `Fuel` when it is exhausted. Theorems conclude
  `Ok`, so they exclude all three;
* string and array lengths are assumed to stay below 2^31 (they are `int` in the code); this is
  not modelled unless a property is about overflow.

## Trusted base

* Coq 8.16.1's kernel (with `vm_compute`; `coqchk` re-checks everything without it) and its
  parser and printer for the statements.
* `Print Assumptions`, placed under every theorem in `Props/`, answers "Closed under the global
  context" for all of them: no theorem uses an axiom, neither of the standard library nor of
  another one. `coqchk` lists the seven axioms of the standard library's `Coq.ssr.ssrunder`
  (`Under_rel`, `Under_rel_from_rel`, `Under_relE`, `Over_rel`, `over_rel`, `over_rel_done`,
  `under_rel_done`: sealed definitions of a module type), because that file is loaded; no theorem depends
  on them.
* The reading of the C++ code in `Model/`, done by hand. Nothing links it mechanically to /repo.
* The meaning of C++ that the model assumes: LP64, signed `char`, two's complement, C++17, the
  Linux configuration, release build (`TM_ASSERT`, `CHECK_COMPOUND` and other debug checks off
  unless a definition says otherwise).

## What is modelled

| /repo | model | notes |
|---|---|---|
| lolly/data/base64.cpp | Model/Base64.v | all |
| lolly/data/unicode.cpp | Model/Utf8.v, Model/Unicode.v | all; the conversion between UTF-8 and UTF-16 itself (tb_charset_conv_data) is a parameter assumed to follow the standards on correct text |
| lolly/data/numeral.cpp | Model/Numeral.v | all |
| lolly/data/lolly_tree.hpp | Model/Tree.v, Model/TreeMore.v | all; strings and arrays shared with variables and the data field are in TreeMore.v |
| lolly/data/string_u16.cpp, string_u16.hpp, string_view.hpp | Model/StringU16.v | all |
| Kernel/Types/string.cpp, string.hpp | Model/StringBuf.v, Str.v, NumStr.v | all but `operator new` plumbing; for doubles see Model/DoubleText.v |
| Kernel/Types/analyze.cpp, analyze.hpp | Model/Chars.v, NumStr.v, Reader.v, Search.v, Text.v, Length.v, Il2.v | all but `sscanf` |
| Kernel/Types/parse_string.cpp | Model/ParseString.v | all |
| Kernel/Abstractions/classdef.hpp | Model/RefCount.v | CONCRETE, CONCRETE_NULL, ABSTRACT handles |
| Kernel/Containers/array.* | Model/Array.v | all but printing |
| Kernel/Containers/list.* | Model/LinkedList.v | all but printing |
| Kernel/Containers/hashmap.*, hashmap_extra.ipp | Model/Hashmap.v | all but printing |
| Kernel/Containers/hashset.* | Model/Hashset.v | all but printing |
| Kernel/Containers/iterator.* | Model/Iterator.v | hash map, hash set iterators |
| Kernel/Containers/rel_hashmap.*, hashfunc.* | Model/RelHashmap.v, Model/RelShared.v | layers not shared between two relative maps in the first, which C35 is about; shared in the second; public members are not assigned directly |
| Kernel/Algorithms/merge_sort.hpp | Model/MergeSort.v | all |
| Data/String/fast_search.cpp | Model/FastSearch.v | all |
| System/Memory/impl/fast_alloc.cpp, fast_alloc.hpp | Model/FastAlloc.v | without DEBUG_ON and MEM_DEBUG; not the statistics printing |
| System/IO/tm_ostream.cpp, tm_ostream.hpp | Model/OStream.v | all; the texts of floating point numbers are in Model/DoubleText.v; libc's buffering (fflush) has no effect in the model |
| lolly/system/timer.cpp; basic.cpp (end of line) | Model/Timer.v | all; the clock is an input of every event |
| System/Language/locale.cpp | Model/Locale.v, Model/Session.v | Linux, and Windows and macOS with the constants of winnt.h |
| lolly/system/args.*, win_get_username of Plugins/Windows/win_sys_utils.cpp | Model/Session.v | all but exceptions; the functions of Windows by their contracts |
| Kernel/Abstractions/blackbox.hpp; basic.cpp (new_type_identifier) | Model/Blackbox.v | all; counting of handles is Model/RefCount.v |
| hash functions of basic.hpp, basic.cpp, string.cpp, string_u16.hpp, array.ipp, ntuple.hpp | Model/Hash.v | all, and the == of tuples; both with wrap-around and with the rules of C++17 |
| System/Files/file.cpp | Model/File.v | is_local_and_single, as_local_path, is_directory, is_regular, file_size, find_the_first_exist, load, save, append, append_to, remove, move, copy over an abstract file system; rights and times are in Model/FileTest.v, listings in Model/Directory.v, temporary files in Model/Temp.v; links are not modelled |
| Plugins/Unix/unix_sys_utils.cpp | Model/Pipes.v, Model/Command.v | _ts_string, both background tasks, the pipes and the result of unix_system; the second in any order of the threads, with failing pthread_create, without other failures |
| lolly/system/subprocess.cpp | Model/Subprocess.v | check_output over an adversarial schedule of reads and waits |
| call of lolly/system/subprocess.cpp | Model/Call.v | wordexp of libc by its contract, tbox's tb_process_run as a function |
| lolly/hash/md5.cpp, sha.cpp | Model/Digest.v | all, over Model/File.v; tbox's digest functions are a parameter, assumed to compute the standards as defined in Spec/Digest.v |
| Kernel/Containers/hashtree.hpp, hashtree.ipp | Model/Hashtree.v | all but operator[] (does not compile when used) and the counting of handles; nodes are places in a heap, over Model/Hashmap.v |
| Plugins/Unix/unix_sys_utils.cpp, System/Misc/sys_utils.cpp | Model/Spawn.v | the file actions and the arguments of unix_system, evaluate_system |
| System/Files/file.cpp | Model/Directory.v | is_directory, mkdir, make_dir, rmdir, chdir, read_directory, subdirectories over a tree of directories; tbox by contract, no links |
| lolly/data/uri.cpp, lolly/io/http.hpp, http.cpp | Model/Http.v | all, with cpr as a contract (requests are sent as set, header names compared by tolower); not the versions for WebAssembly |
| System/Files/file.cpp, System/Classes/url.cpp, lolly/hash/uuid.cpp | Model/Temp.v | url_temp, url_temp_dir, url_pwd over Model/Directory.v; the uuids are an input |
| System/Files/file.cpp | Model/FileTest.v | the tests of files, over what tb_file_info and tb_file_access answer; the names on Windows are left out |
| System/Classes/{file,http,https,ftp,blank}_url.cpp | Model/UrlClass.v | all, over Model/Url.v |
| Kernel/Abstractions/resource.hpp, lolly/system/shared_lib.* | Model/Resource.v | all but printing and get_function; over Model/Hashmap.v, addresses are not reused |
| operators << of Kernel/Containers/{array,list,hashmap,hashset,iterator,rel_hashmap}.ipp, ntuple.hpp; display_control in Kernel/Abstractions/basic.cpp | Model/Print.v | all, over Model/OStream.v |
| Plugins/Windows/spawn.cpp, spawn.hpp, win_sys_utils.cpp | Model/Channel.v, Model/WinArgs.v, Model/WinCommand.v | Channel, bkgread, spawn_system, win_system; the second has the replacement of $$i and $%i, the third has the threads in any order; win_get_username is in Model/Session.v, the process id is not modelled |
| Kernel/Types/string.cpp, System/IO/tm_ostream.cpp: doubles as texts | Model/DoubleText.v | `sprintf` with %g and `sscanf` with %lf are those of libc: they are modelled as correctly rounded in the C locale, as glibc does. What sscanf does with texts that do not start with a decimal number (hexadecimal numbers, inf, nan, anything else) is a parameter |
| Kernel/Types/analyze.cpp: read_double, parse_length (values) | Model/DoubleRead.v | as Model/DoubleText.v |
| System/Classes/url.cpp for Windows (WINPATHS, os_win, os_mingw) | Model/UrlWin.v | reading, printing, products, head; expand, delta, protocol and the other operations are the same code as on other systems and are modelled in Model/Url.v; `isalpha` of a negative character is undefined |
| Kernel/Abstractions/basic.hpp, minmax.hpp | Model/Double.v | as_int (double), tm_round, min and max; signed zeros are not distinguished |
| System/Misc/sys_utils.cpp, Plugins/Unix/unix_sys_utils.cpp, System/Classes/tm_timer.cpp | Model/Env.v | get_env, set_env on Unix, unix_get_login, unix_get_username, raw_time, texmacs_time; tbox's environment by a contract; not bench |
| System/Misc/sys_utils.cpp | Model/Stacktrace.v | get_stacktrace; the frames and names are those tbox gives |
| Kernel/Containers/promise.hpp, unary_function.hpp | Model/Promise.v | all; calls end, and objects own no handles |
| System/Memory/impl/je_malloc.cpp, mi_malloc.cpp | Model/OtherAlloc.v | all but the text of mem_info and of the error handler; the allocators themselves are trusted to answer regions apart from those in use; realloc to 0 bytes left out |
| System/Memory/impl/fast_alloc.cpp, fast_alloc.hpp with DEBUG_ON | Model/DebugAlloc.v | the checks of one block or array; break_stub by its answer; which memory a block gets is in Model/FastAlloc.v |
| System/Classes/url.cpp, url.hpp | Model/Url.v | construction, products, alternatives, delta, expand, sort, factor, scanner, printing for the UNIX configuration |

Not modelled so far: every file not named here, and all of tbox and libc.
The text of a path is given to the system as it is: that tbox itself may rewrite a path that starts with `~` or `file:`
before it opens it is part of the trusted base.

## Defects found

Where a property is false of the code, a theorem with `_refuted` in its name proves it and a
`_partial` theorem gives the strongest true statement found. The notes in MANIFEST.json describe
each one. Further observations made while reading, outside any property:

* `fast_realloc` does not test the result of `realloc`; `fast_alloc_mw` does not count large blocks.
* The raw-pointer constructors of `ABSTRACT_NULL_TEMPLATE` increment the count of a null pointer.
* Negative operators of `lolly_tree` print as nothing, and their arrays are never destroyed
  (`~lolly_tree_rep` tests `op > 0`).
* `t == 0` on an atomic `lolly_tree` reads the array member of the union while the label is active.
* `l << l` on a linked list makes a cycle; `N` then never returns (C39).
* With `HOME=~` the url scanner calls itself with the same text and never returns.
* `descends (u, url_root ("default"))` is false for every rooted `u`: a bare root is neither atomic nor a product.
* `expand ({a/b/c:d}/...)` skips parents (it has the alternatives `a/b/c` and `a`, but not `a/b`); without alternatives in front no parent is skipped (C49).
* `string_u16_rep::reserve (0)` frees the array of a nonempty string (C52); the comparison "literal < view"
  of string_view.hpp does not compile when it is used.
* `url_root ("file") * url_root (...)` reads outside the array of a tree (C48).
* `unix_system` replaces `$$1` also within `$$10`; when `pthread_create` fails it returns while threads use its channels.
* `check_output` keeps its own end of the pipe open while it reads, so that it never sees the end of the output and always waits for a timeout.
* `win_get_username` passes the length of its buffer uninitialized (C93); `LANG_CHINESE_TRADITIONAL` is no primary language, so that its case in `windows_locale_to_language` is never taken.
* The tests of promise assign objects to `rep`, which does not count; the last of them uses an object after it was deleted (C95).
* With mimalloc, NULL is handed to programs when memory is refused before mem_init, and mem_used counts blocks, not bytes; with jemalloc mem_used is 0 (C96).
* With DEBUG_ON, the report of an overflow reads up to three bytes behind the block; writes up to the next whole word, and to the upper halves of the words in front of an array, are not reported; tm_resize_array, which strings and arrays use, does not exist (C97).
* After `shorten` has removed the only layer that a relative hash map had over another one, writes through it change that one (C98).
* `unix_system` with an empty input does not close the pipe: a command that reads this input up to its end waits for ever, and so does the caller (C58, C99).
* `unix_system` does not care for SIGPIPE: a command that ends before it has read its input can end the caller (C99).
* When `pthread_create` fails for a thread other than the first, `unix_system` returns and frees the channels that the other threads use (C99).
* On Windows `unix_system` writes the inputs in turn with writes that wait: with two inputs longer than a pipe it waits for ever for a command that reads the second one first (C100).
* On Windows a reading thread that is not done five seconds after the end of the command goes on appending to a string that the caller copies and frees (C100).
* `move` and `copy` do not test that the urls are local; `read_directory` reports no error for urls that are not local.

## Plan per property (written before the proofs)

* **C01 Base64 round trip** – Model/Base64.v (bytes, table literals, out-of-table reads = UB). Round trip by induction over 3-byte groups with the line counter generalised; the 6-bit arithmetic by exhaustive sweep lifted to all bytes.
* **C02 Base64 output is standard Base64 in 80-column lines** – Same model; Spec: bit list chopped in 6-bit groups + '=' padding; line feed positions by an independent `lines80`.
* **C03 Base64 decoder is total on arbitrary text** – Same model; expected false: refuted with witnesses, partial theorem for the safe inputs.
* **C04 UTF-8 round trip** – Model/Utf8.v, bit operations on Z; div/mod characterisation.
* **C05 UTF-8 decoder progress and safety** – Same model with checked indexing; case analysis on the lead byte and truncation.
* **C06 UTF-8 text scanning** – Induction over the code list using C04.
* **C07 Hexadecimal integers round trip** – Model/Numeral.v; induction on digits; INT_MIN witness if refuted.
* **C08 Fixed-width and binary hexadecimal** – Model/Numeral.v; induction on the width; injectivity through a reader spec.
* **C09 Roman numerals denote their number** – Spec: additive/subtractive reader of roman numerals; finite sweep over 1..3999 lifted by forallb_forall, all other ints by case analysis.
* **C10 Chinese numerals denote their number** – Spec: reader of Chinese numerals; groups of four digits by finite sweep (10^4 x leading zero), composition symbolic.
* **C11 Alphabetic numbering** – Spec: bijective base 26 value; strong induction.
* **C12 Decimal integers round trip** – Model/StringNum.v with explicit 32-bit overflow = UB.
* **C13 Integer recogniser agrees with the reader** – Same; grammar spec; refuted parts by witness.
* **C14 Strings never overrun their buffer** – Model/StringBuf.v: (n, capacity, buffer) with uninitialised cells; invariant + refinement to list over all operation sequences.
* **C15 Substring and concatenation laws** – Model/Str.v; list lemmas about firstn/skipn.
* **C16 String order is a total order** – Signed-char lexicographic comparison; induction.
* **C17 Forward search finds the first match** – Model/Search.v; loop with checked indexing; occurs-at spec `exists`-style.
* **C18 Backward search finds the last match** – Same.
* **C19 Occurrence count is exact** – Same; spec counts positions by filter over seq.
* **C20 Replacement is left-to-right and complete** – Spec: relation `Replaced`; fuel loop; divergence for the empty pattern proved for all fuel.
* **C21 Tokenize and recompose are inverse** – Same technique as C20.
* **C22 Wildcard matching is glob matching** – Spec: inductive glob relation; induction on the pattern.
* **C23 Trimming removes exactly the outer spaces** – Index loops vs dropWhile spec.
* **C24 Quoting round trips** – Escape/unescape by induction on the string.
* **C25 Case conversion laws** – Byte sweep over 256 values lifted to all strings by map.
* **C26 Differences describe an edit script** – Model the recursion with fuel; apply-edit-script spec; refuted by witness plus what is true.
* **C27 Overlap is the longest suffix-prefix match** – Maximality by induction on the loop counter.
* **C28 String union and difference are set operations** – Membership induction.
* **C29 Cursor readers stay in bounds** – Checked indexing; invariant i <= i' <= n for each reader.
* **C30 parse_string behaves as one flat input** – Model/ParseString.v; refinement to a flat list over all op sequences.
* **C31 hashmap is a finite map** – Model/HashMap.v: bucket array of association lists, parametric hash and key equality; refinement to a finite map by invariant over op lists.
* **C32 Iterating a hashmap or hashset visits every key exactly once** – Iterator model over the bucket array; Permutation of the keys.
* **C33 hashmap equality is extensional** – Refuted by witness (default values), partial theorem for maps without default values.
* **C34 hashset is a finite set** – As C31.
* **C35 rel_hashmap is a stack of overlays** – Layer list over the map spec.
* **C36 hashmap patches undo edits** – Map algebra over the same model.
* **C37 Memoised functions return the function's value** – State machine with an evaluation log.
* **C38 array is a list with value growth** – As C14, generic element; self-append modelled on a shared heap cell.
* **C39 list operations** – Heap of cells with next pointers; pure operations vs list spec; in-place append frame/aliasing.
* **C40 merge_sort sorts stably** – In-place array model of merge_sort_sub with buffer; Sorted/Permutation/stability by induction on the range.
* **C41 Sorting by permutation** – Two-array version in lockstep.
* **C42 Indexed search finds all matches** – Rolling hash identity; per-level tables; refuted out-of-bounds case + full theorem for patterns whose prefix level exists.
* **C43 Longest common substring is longest** – Invariant over the candidate enumeration + completeness through the largest power of two.
* **C44 Reference counting is exact** – Heap/handle machine with counts; invariant over all programs; nested objects.
* **C45 Small-object allocator hands out disjoint blocks** – Address-level machine with free lists stored in memory and an adversarial malloc; disjointness invariant.
* **C46 Allocator accounting and reallocation** – Same machine with byte contents; accounting refuted/partial.
* **C47 Trees: equality and copy** – Inductive trees; structural induction.
* **C48 Path concatenation laws** – Model/Url.v: url trees; recursion with measure.
* **C49 Path alternatives: or, expand, sort, factor** – Same; alternatives semantics.
* **C50 delta is inverse to relative** – Same.
* **C51 Path parsing and printing round trip** – Scanner model + printer.
* **C52 UTF-16 string buffers** – As C14.
* **C53 Output buffering** – Stack of buffers, refcount machine.
* **C54 Task timers** – Timer state machine vs interval spec.
* **C55 Locale names round trip** – Total functions on strings; finite table.
* **C56 Opaque boxes are typed** – Type ids as allocation counter.
* **C57 File saving and loading** – Abstract file system map (tbox calls as an oracle with stated behaviour).
* **C58 Subprocess pipes transfer all bytes** – Adversarial schedule of partial transfers.
* **C59 Shell escaping protects arguments** – POSIX word-splitting reader for the fragment used; expected false, refuted by witness.
* **C60 Hashes agree with equality** – The loops over the buffers compute a function of the contents; congruence for any element types; two readings of int arithmetic (wrap-around, C++17); IEEE bit patterns for floats, where 0.0 and -0.0 refute it.
* **C61–C67** – added while modelling analyze.cpp; Model/NumStr.v, Search.v, Text.v.
* **C68 Trees: joining, slices, appending, assignment** – Model/Tree.v; heap of nodes, strings and arrays; relation to inductive trees; frame conditions.
* **C69 check_output returns the output** – Adversarial schedule of reads and waits; the loop returns for every schedule; completeness for timely schedules.
* **C70 Digests of files** – MD5 and SHA-2 written out as functions in Spec/Digest.v (checked on the standards' examples); the empty-file constants are computed from them; open files and kept memory are counted.
* **C71 Hash trees** – simulation between heaps of nodes with hash maps and abstract graphs with named edges (sharing and cycles included); for dictionaries, an invariant that every node is reached from exactly one dictionary by exactly one word.
* **C72 Names of files** – the last component of a url is isolated by induction on the directories; suffix and basename by their scan for the last dot; glue and unglue by the same induction; descends by induction on both lists of alternatives, with "at or below" stated as: same root, and the components of the base are first.
* **C73 Descriptors and arguments of commands** – tables of open files as functions, the file actions performed in order; induction over the channels with all descriptors involved different. Arguments live in the heap of arrays of C38, because unix_system works on a second handle of the caller's array; replacement by C20.
* **C74 Directories** – the disk is a tree; induction over paths for making and removing, over trees for listing; urls give places by C51 and C48. The effect is stated for every place of the disk.
* **C75 Addresses and requests** – reading and printing by C48 and C70; the network is any function; the headers sent by induction over the iteration of the hashmap (C31), the headers received by induction over the reply.
* **C76 Temporary files** – the static variables are part of the state; an invariant over all sequences of calls, induction over the number of names that are taken.
* **C77 Tests of files** – for arbitrary answers of the operating system; induction over the letters.
* **C78 Classes of urls** – the constructors and the scanner are compared for all fuel; the rest from C51.
* **C79 Resources** – invariant between the table and the objects over all sequences of operations.
* **C80 Printing** – texts by induction on a universe of types; each text is a prefix code before a comma, a space or an arrow.
* **C81 Indentation** – invariant between the indentation and the column of a terminal.
* **C82 Windows channels** – the table of descriptors as a finite map and the system as a function that chooses free ones; frame lemmas for each phase; a measure for the sending loop.
* **C83 ideographs, ranges, UTF-16** – the tests against an inductive grammar of marks; the order of texts on four digits is the order of numbers; UTF-16 from the standard, sizes of both encodings compared by induction.
* **C84 kinds of urls** – each test is equivalent to a statement on the first components, or on all parts, of the url; products by induction on the calls of operator*, with one lemma that lists the cases of a call.
* **C85 environment, user and clock** – the environment is a map from names to values, tbox a pair of functions with a contract that is shown to be satisfiable in two ways; the user's name by the characterisation of tokenize (C21); the clock by integer division.
* **C86 rounding and comparing doubles** – doubles are integers in units of 2^-1074 with NaN and two infinities; addition is exact and then rounded to the nearest double, ties to even, and is proved to be closest; floor of x + 1/2 is compared with the nearest integer by cases on the size of x.
* **C87 lengths** – the text is cut at the first lower-case letter; the exact language follows from that of is_double (C61), since the first part contains no e.
* **C88 Latin 2 and Cork** – both encodings are written down as tables of Unicode code points; the tables of the code are compared with them character by character for all 256 characters, and texts follow by induction.
* **C89 Names of files on Windows** – the parts of url.cpp that differ with WINPATHS, os_win () and os_mingw () are modelled with a switch for the two configurations; the scanner of names, the tests of the text, products and printing are followed by induction on the components; lists by induction on the names.
* **C90 doubles as texts** – a double is its sign and an integer in units of 2^-1074; printing rounds to six digits and reading rounds to 53 binary digits, both with integers; the specification is over the rational numbers (nearest, ties to even), and the proofs scale to integers. Ratios of neighbouring doubles (at most 1 + 2^-19 from 4.95e-318 on) are compared with those of neighbouring six-digit numbers.
* **C91 numbers in texts** – the values of read_double and parse_length are those of as_double (C90) on the texts that C29 and C87 determine; printed texts are plain or have an exponent, and the plus of the exponent appears exactly from 999999.5 on, by monotonicity of printing.
* **C92 trees: questions, values, sharing and data** – over Model/Tree.v: each question by the two forms of a tree; strings shared by atoms through shapes (trees with numbers of strings); data by an invariant over all programs (nodes are only added, data is as long as nodes).
* **C93 the session** – Model/Session.v: fix_args over the converter of C83, nested scopes as a tree of statements, the counters of memory by induction over it; GetUserNameExW by its contract with an arbitrary initial length; identifiers of languages by arithmetic (language + 1024 * region).
* **C94 command lines** – Model/Call.v: call with wordexp and tb_process_run as parameters. The contract of wordexp (Spec/Call.v) says what words separated by blanks and characters of the grammar give; a small splitter is shown to fit it.
* **C95 function objects** – Model/Promise.v: programs over handles with counts, parameters by value included; simulation of the meaning in which objects stay for ever (Spec/Promise.v), with the number of handles per object as invariant.
* **C96 jemalloc and mimalloc** – Model/OtherAlloc.v over the memory of Model/FastAlloc.v, the allocator answers any free aligned region; invariant: the regions are a permutation of those of the live blocks and pairwise apart.
* **C97 DEBUG_ON checks** – Model/DebugAlloc.v: a block as bytes, with its header words and its guard; which bytes are looked at, and that any change of a word changes its value.
* **C98 Shared layers of relative hash maps** – Model/RelShared.v: the representations as objects in memory; a measure that decreases downwards for all programs; refinement to finite maps.
* **C99 Commands and threads in any order** – Model/Command.v: a transition system of the caller, the threads and an arbitrary automaton as command; an invariant links the pipes with what the command by itself has still to read and has written; accessibility of the command by itself and a measure of the rest give termination.
* **C100 Commands on Windows in any order** – Model/WinCommand.v: as C99, but the caller itself writes all inputs in turn with writes that wait, and waits at most five seconds for each reading thread.
* **C101 Search paths** – Model/Url.v and Model/File.v together: from the text of the path and the name to the file that is read or written. The disk is the abstract file system of Model/File.v and also the tree of C102 (Spec/SearchDisk.v), where the places of relative directories start at the current one.
* **C102 One disk** – the file system of Model/File.v and the tree of Model/Directory.v are related (Spec/Disk.v: paths mean the places they lead to); every operation refines an update of a map from places to things, by induction over programs, in both directions. With refusals (Spec/DiskRefuse.v) every operation refines a partial update of that map, whatever the system answers.
* **C103 Stack traces** – Model/Stacktrace.v; tbox gives the frames and their names; induction on the frames; the array of addresses has cells, so the largest bound refutes it.
* **C104 Using temporary files** – Model/Temp.v and Model/File.v on one disk (Spec/Disk.v); induction over the requests with the invariant that nothing is lost that does not look missing to file_size.

## Not expressible in a model

Performance, the behaviour of tbox/cpr/libc themselves, thread scheduling of the real
subprocess layer, floating-point printing and parsing (delegated to libc), and the compile-time
configuration for macOS and wasm (of Windows only what the table above lists is modelled).
