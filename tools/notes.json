{
 "C01": {
  "note": "Exact for all operands up to 32 bits; for 64-bit operands the result is floored whenever defined, in both emitted forms, and the undefined operand pairs are characterised exactly. The full claim is refuted near the ends of the 64-bit range."
 },
 "C02": {
  "note": "Inline form exact. The 64-bit run-time routine truncates to 32 bits (refuted), exact domain characterised."
 },
 "C03": {
  "note": "ASH and LSH for all counts below the width; ROT for non-zero counts, and by 0 for 8 and 16 bits; ROT by 0 is undefined C for 32/64-bit operands (refuted)."
 },
 "C04": {
  "note": "All constructors and operators; IN for elements up to 32 bits, and for exactly which 64-bit elements it is exact or undefined (refuted part)."
 },
 "C05": {
  "note": "Routine forms exact, save that SHORT of a value near the maximum of its type overflows instead of trapping (refuted). Inline index and CHR checks let negative values pass (refuted)."
 },
 "C06": {
  "note": ""
 },
 "C07": {
  "note": ""
 },
 "C08": {
  "note": "For up to 16 proper base types (17 levels; the last one uses the reserved word after the table), which is the supported depth. Deeper hierarchies are accepted by the compiler but the program halts at start (finding C08_depth_refuted).",
  "status": "proved"
 },
 "C09": {
  "note": "Numbering by the compiler, inheritance of tables and calls, for all hierarchies up to 16 proper base types and up to 32767 procedures per type. Calls of the overridden procedure (name^) are direct and not modelled.",
  "status": "proved"
 },
 "C10": {
  "note": "NEWREC in every valid heap: fresh, cleared, aligned, disjoint from everything alive; NIL only after a refusal by the operating system. The initial heap is valid if the first request succeeds (otherwise InitHeap writes through NIL, finding C10_initial_heap_refuted). Histories: C59.",
  "status": "proved"
 },
 "C11": {
  "note": "Mark (Deutsch-Schorr-Waite pointer reversal) on every finite graph, for one root and for root lists; terminates, marks exactly the reachable objects, changes nothing but mark bits."
 },
 "C12": {
  "note": "Scan on every heap: kept blocks untouched, the rest tiled by maximal free blocks, free lists exact."
 },
 "C13": {
  "note": "MarkStack/HeapSort/MarkCandidates on every heap and word list: blocks pointed to (start or inside) and what they reach are marked, and nothing else. C13_exact_addresses_refuted: the stronger claim that only exact addresses of allocated blocks count is false; interior words and words pointing into free blocks count too.",
  "status": "proved"
 },
 "C14": {
  "note": "HeapSort for every array and prefix length."
 },
 "C15": {
  "note": "Only objects unreachable from variables and stack are finalized, conservation over all histories, all called at exit. A finalizer that registers again for ever keeps the program from ending (finding C15_exit_ends_refuted). Finalizers are modelled as oracles that may register but do not start collections or change the heap.",
  "status": "proved"
 },
 "C16": {
  "note": "C16_unload_safe (nothing that was imported is unloaded), C16_unload_effect, C16_lookup, C16_loaded_found (module names up to 19 and command names up to 23 characters). Refuted parts: C16_release_refuted (unloading does not release the imports of the module), C16_long_name_refuted (names of 20 or more characters are cut and not found).",
  "status": "partial"
 },
 "C17": {
  "note": "WriteNum/ReadNum on the buffered file of C20: shortest encoding of at most 10 bytes, exact consumption, prefix freedom, round trip for every variable size. Finding: an over-long number (11 continuation bytes) makes ReadNum shift by 70 bits (C17_overlong_refuted).",
  "status": "proved"
 },
 "C18": {
  "note": "Round trips in the Oberon-2 data model (16/32 bit), sets, booleans and the bytes of reals. Findings: in the component model (32/64 bit) negative INTEGER/LONGINT values do not come back; compiled with range checks WriteInt traps above 255; a read at end of file returns uninitialised memory. Big-endian FlipBytes not modelled.",
  "status": "partial"
 },
 "C19": {
  "note": "WriteString/ReadString/ReadLine on the buffered file; strings up to 32767 characters (INTEGER index). Finding: ReadLine of a last line without LF needs one more array element.",
  "status": "proved"
 },
 "C20": {
  "note": "Refinement of the buffered file (Files.Mod 151-486) to a flat byte array for every operation history and any number of riders; Close writes the content. Finding: eof of a rider is sticky and only reset when an internal Set happens (C20_eof_after_read_refuted). Not covered: operating-system errors, file length beyond MAX(LONGINT).",
  "status": "proved"
 },
 "C21": {
  "note": "Model: the file model of C20 with its log of system calls, a directory, Deregister/Rename/Register. Proved: nothing but the temporary name changes before Register, at every stop point; after Register the name denotes exactly the bytes written; other names are intact at every stop point; for a file that has outgrown its buffers and no open previous version Register is atomic. Findings: a file that fits in the buffers is registered by unlinking the old file and writing in place (C21_lost_old_file_refuted, C21_partial_file_refuted); an open previous version is renamed away first (C21_open_previous_refuted). System calls are taken to succeed.",
  "status": "partial"
 },
 "C22": {
  "note": "Trim, Canonify, ExtractPart, AppendPart and MakeFileName compute the stated name for all strings, and the name denotes the same file in every directory tree (symbolic-link free model). Refuted edge cases: Trim of \".\" gives \"\", \"///x\" becomes \"//x\", backslash counts as a separator, MakeFileName with directory \"/\" loses the slash.",
  "status": "partial"
 },
 "C23": {
  "note": "Every 64-bit value and width: the text is the shortest decimal numeral, right-justified; the specification determines it uniquely."
 },
 "C24": {
  "note": "Nonnegative values exact at every width; negatives print the low n digits of the two's complement value (finding). The 16-digit case needs ROT by 0, undefined C (refuted), so those theorems use a rotation that treats 0 as identity.",
  "status": "partial"
 },
 "C25": {
  "note": "Nothing lost, duplicated or reordered for any history, given that write accepts all bytes. Findings: an empty string with a full buffer traps; partial writes lose data."
 },
 "C26": {
  "note": "Round trip for every 64-bit value with wrapping arithmetic. In strict C, proved up to 15 digits; longer decimals overflow the hexadecimal accumulator (refuted). Int and LongInt truncate silently (refuted).",
  "status": "partial"
 },
 "C27": {
  "note": "Char, Line and successful String partition the input for every history. Findings: a failing String loses what it has read; a string of exactly LEN-1 characters is refused."
 },
 "C28": {
  "note": "Exact result of Append and Length. The claim that the result is always terminated is refuted."
 },
 "C29": {
  "note": "Insert, Delete, Extract inside their domains, exact behaviour of Replace; the documented behaviour of Insert behind the end, of truncation in Insert and Extract, and of Replace at positions > 0 is refuted."
 },
 "C30": {
  "note": "First occurrence for every non-empty pattern; empty pattern refuted (answers 0 for every start position)."
 },
 "C31": {
  "note": ""
 },
 "C32": {
  "note": "Simulation over all histories. The client rules in the statement are each shown necessary by a proved trace or theorem. LONGINT lengths are unbounded; a loaded text is modelled only as one piece; Store, Load1 and Scan are not modelled."
 },
 "C33": {
  "note": "C33_write_int, C33_int_roundtrip, C33_sequence, C33_write_hex, C33_hex_scan, C33_name, C33_string. Not true: C33_min_refuted (scanning MIN(LONGINT) overflows), C33_hex_name_refuted (hexadecimal text starting with a letter is a name). Real numbers are not modelled.",
  "status": "partial"
 },
 "C34": {
  "note": "C34_pack_unpack, C34_order."
 },
 "C35": {
  "note": "Decimal, H and X literals of any length, including ones with more than 32767 digits where the counters wrap. \"No literal is silently wrapped\" is refuted for H literals from 2^63 to 2^64-1, which denote negative numbers (C35_wrapped_refuted; C35_hexadecimal says exactly which). Numbers with a point are not modelled.",
  "status": "partial"
 },
 "C36": {
  "note": "Against a two-character specification of comments (comment_end) and against a grammar of nested bodies (C36_nested). C36_total: every text has a next token. Numbers with a point deliver TReal without value."
 },
 "C37": {
  "note": "All names up to 255 ASCII letters and digits, with the next character ASCII. Bytes from 80X on are taken into names or not depending on their low bits (C37_high_bytes_refuted).",
  "status": "partial"
 },
 "C38": {
  "note": "Exact contents and the converse. Characters 00X..08X inside a literal are silently replaced by blanks (C38_control_refuted).",
  "status": "partial"
 },
 "C39": {
  "note": "Model of MOp, ConstOp, Convert and ASH on constants as compiled to C. C39_exact: for every constant expression of any size, an accepted result is the mathematical one, fits 64 bits and has the smallest type. C39_fold, C39_div, C39_ash: exactly when each operator is exact or rejected. Also relations, conversions and sets. Refuted parts: the product of constants of opposite sign is undefined in the compiler, and rejected with error 204 where overflow wraps; MIN DIV -1 is not rejected; the type of a folded ASH is not adjusted to its value. Real constants are not modelled."
 },
 "C40": {
  "note": "Model of Op with log, conversions, folding, shifts and masks, and of the value the written C computes. C40_same: each replaced operator computes the same value, effects and traps as the operator written. C40_exact: for every expression the nodes built compute the mathematical value with the effects of left-to-right evaluation, and have the right type. Refuted part: multiplication by the constant 0 drops the effects of the other operand."
 },
 "C41": {
  "note": "Sizes and types of integer constants and LONG/SHORT neighbours over all 64-bit values. C41_limits: SignedMaximum and SignedMinimum are exact with wrapping subtraction; C41_limits_refuted (finding beyond the claim): in strict C SignedMaximum(8) is a signed overflow.",
  "status": "proved"
 },
 "C42": {
  "note": "All scalar parts of every type are disjoint, inside and aligned; fields ascend; extensions keep the offsets of their base and may use its trailing gap. Refuted: sizes are computed in 32 bits without a check, and array lengths are cut to 32 bits without an error."
 },
 "C43": {
  "note": "Written fields are at the compiler's offsets; in the own C file sizes and alignments agree for every type; in clients if the record is fit (sufficient condition). The pointer table is exactly the traced pointers, ascending. Refuted: for RECORD a*: CHAR; p: INT64; b*: INT32 END the client's struct has 20 bytes where the compiler assumes 24."
 },
 "C44": {
  "note": "Find equals the lookup in the innermost scope after every history without errors; duplicates are reported exactly when the scope has the name; hidden FOR variables never clash. Refuted: a rejected declaration can drop the left subtree of the first one."
 },
 "C45": {
  "note": "One changed word anywhere changes the fingerprint; one changed 32-bit value of the same sign does. Findings beyond the claim: x and -1-x have the same fingerprint, so CONST c = 5 changed to -6 is not noticed, nor are some sets.",
  "status": "proved"
 },
 "C46": {
  "note": "Accepted CASE statements have pairwise disjoint labels of the right type and select the branch whose label contains the value, else the default (C46_accept, C46_select). Refuted: labels are truncated to 32 bits, so that 64-bit labels are lost or collide, and MIN and MAX labels together overflow."
 },
 "C47": {
  "note": "FOR executes the body for from, from+step, ... up to the limit, evaluates both bounds once, and terminates when the last increment stays within the type. Refuted: a limit near the type's maximum loops forever (8 and 16 bits) or is undefined (32 and 64 bits)."
 },
 "C48": {
  "note": "Every 64-bit integer is written as a C expression of its value (with the paren form for the minimum values), every set as its bits. Refuted part: IntLiteral(MIN(INT32), 8) is an expression of type int, not INT64.",
  "status": "partial"
 },
 "C49": {
  "note": "Character and string literals: parsing the emitted C text by the rules of C gives back the characters, with octal escapes and trigraphs covered."
 },
 "C50": {
  "note": "The text the compiler writes for every expression tree (all operators, conversions, guards, designators, calls with their parameters, open array subscripts) is read by a C parser as the intended tree, the tokens never merge, and conditions are parenthesised."
 },
 "C51": {
  "note": "Same behaviour for every meaning of guards and statements, including effects and traps of the guards; no constant guard is left.",
  "status": "proved"
 },
 "C52": {
  "note": "Generated names are distinct and escape the listed C words. Refuted: hash collisions leave UINT32 and UINT8 unescaped; module size, object t is size_t; C99 words are missing."
 },
 "C53": {
  "note": "No leak between files, toggling by parity, order and double use, for all argument lists. C53_model_refuted records that the size model, which is not an on/off option, is not toggled but replaced.",
  "status": "proved"
 },
 "C54": {
  "note": "For every source, position and history of earlier reports. Refuted part: a position at the very start of a line is reported on the line before unless that line is already cached.",
  "status": "partial"
 },
 "C55": {
  "note": "Types are a table of structures compared by identity, values are an inductive relation. Accepted assignments store a value of the destination type. Also proved: exact cases for reals, the rounding exception, termination for finite nests of procedure types, endless recursion for recursive procedure types (finding), and that safe assignments are not refused."
 },
 "C56": {
  "note": "Exact value of GetTempName; names are unique for counters 0..32767 and process numbers 0..32767, and never equal an ordinary final name. The full claim is refuted: the 16-bit counter wraps and prints nothing, and process numbers are truncated to 16 bits.",
  "status": "partial"
 },
 "C57": {
  "note": "ScanPath enumerates the directories of the search path in order and Old opens the first that works, for every file system (oracle), provided directories fit the 256-character buffers. Refuted when HOME is empty: an entry \"~\" ends the search. The cache of open files and the warnings of Old are not modelled here.",
  "status": "partial"
 },
 "C58": {
  "note": "Proved for element alignment up to 8, records with pointers and any dimensions, and arrays of pointers with exactly one open dimension. Refuted (findings) for arrays of pointers without open dimension (element 0 invisible to the collector: its object is reclaimed while in use), with two or more open dimensions (a length is followed as a pointer), for element counts that overflow, and when memory is refused."
 },
 "C59": {
  "note": "Refinement of the whole storage manager to a store of immortal objects, starting from InitHeap. Record objects only (arrays: C58); finalizers absent; words of 8 bytes."
 },
 "C60": {
  "note": "The subscript is the row-major position for all numbers of dimensions; rows included."
 },
 "C61": {
  "note": "Variable parameters are checked in both directions (what the procedure reads and what it may store). The exceptions SYSTEM.PTR and SYSTEM.BYTE are shown to be real by a theorem."
 },
 "C62": {
  "note": "Real constants are their bytes. Fingerprints and messages about changed symbol files are C45. Assumed: at most 2048 hidden pointers in all records together (the compiler's own check counts them wrongly), integer constants within 32 bits and no array type reachable from the part of its element type that is read before its size; the last two are shown to be needed by theorems."
 },
 "C63": {
  "note": "Holds when hidden fields contain no extended records and no untraced pointers; both exceptions are refuted by theorems (a hidden field of an extended record type loses the pointers of the base type). The sums are not checked for overflow in this model (C42 is about sizes)."
 },
 "C64": {
  "note": "Acceptance, values, LengthInt and (for 32-bit LONGINT) the round trip are proved. Refuted: strEmpty is also the answer for strings such as x1, strOutOfRange for strings such as 99999999999999999999x, and IntToStr for 64-bit LONGINT stops the program on numbers of more than 11 characters and writes -2147483648 for the smallest number."
 },
 "C65": {
  "note": "Simulation for all accepted programs outside three refuted cases: lengths of many-dimensional open arrays are not put into the scope struct (loop never advances dim), fixed-size VAR arrays of an enclosing procedure lack a dereference, type guards on an enclosing procedure's VAR record name an undeclared identifier. Operators are abstract total functions; evaluation order left to right; pointers/heap not included."
 },
 "C66": {
  "note": "Actions, conditions and expressions are arbitrary state transformers, so the theorem covers every expression. Bound: 16-bit label counter, shown sharp by an example. RETURN values with scope structs: C65. FOR is expanded by the parser: C19."
 },
 "C67": {
  "note": "Syntax errors only, plus error 46; type errors do not change what is read. Trees before constant folding (C39) and FOR expansion (C19/C47). Declarations are not part of this model."
 },
 "C68": {
  "note": "Violations found: a value record parameter with an actual of an extended type is written without a cast, so the generated C is rejected; a value parameter of a fixed array type copies its full size from a shorter array or string, reading beyond it; r(T) := v on a VAR parameter compares with and assigns as the unguarded type; a := a for arrays is memcpy onto itself; a record assigned to a[F()]^ evaluates F twice. Numeric conversion of scalars is in C55/C05."
 },
 "C69": {
  "note": "Violations found: the empty string leaves the target array unchanged, without 0X; with 16-bit INTEGER the characters U+8000-U+FFFF become a single byte; malformed UTF-8 is converted without a report, and a byte FEX overflows LONGINT; lossy is never assigned; an incomplete first character makes UTF8toASCII read the element before the array. Upper and lower case conversion are not modelled."
 },
 "C70": {
  "note": "Violations found: a negative element is not trapped, the word before the array is used; Elements (and Print) compute the number of elements in INTEGER, so with 1024 words of 32 bits the result is 0. Sets.Equal and the other two-operand procedures trap if the second array is shorter. Print is not modelled."
 },
 "C71": {
  "note": "Violations found: s - {31} with a 64-element variable s removes all elements from 31 on, because the literal 0x80000000 has C type unsigned int and is complemented in 32 bits; with 64-element SETs (-OV) the complement of a constant set lacks the elements from 32 on; a constant range with a bound above 31 is undefined behaviour in the compiler, whose own sets have 32 elements. Big-endian layout in SetSetType is not modelled."
 },
 "C72": {
  "note": "Violations found: ASH(1, 40) of constants keeps the type LONGINT of 4 bytes, is not reported and is stored as 0; with range checks SHORT(ORD(ch)) is not checked and CHR of a negative call-free value is not checked; ABS of a call of 8 bytes loses the upper half; DIV of large 8-byte numbers overflows on the way; constant products of opposite sign make the compiler divide by zero (C39). The theorems carry the condition clean that excludes them."
 },
 "C73": {
  "note": "C operands are taken from left to right; C leaves the order open except in &&, || and ?:. Violations found and proved: f() IN s calls f twice; i IN f() with i outside the set does not call f; SYSTEM.LSH(x, f()), SYSTEM.ROT(f(), 3), SYSTEM.ROT(x, f()) call f two or three times; ASH(f(), n) reads n before and after f; a[f()](T), a[f()].m, a[f()][i] of a pointer to an open array and P(a[f()]^) for records and open arrays by reference call f twice; p[f()] where f replaces p is checked against the new array and accesses the old one beyond its end. The theorems carry the condition once that excludes them."
 },
 "C74": {
  "note": "The grammar is the report's with the documented extensions (system flags, the procedure marks *, + and -). Errors about types and undeclared names are not in this property: names denote what arbitrary functions of the place say. Imports are taken as found."
 },
 "C75": {
  "note": "The imports are executed in the order of their local names, not in the order written: the comment in Modules.Mod that Platform must be imported before Heap has no effect (Heap goes first, which is what REGMOD needs). With cyclic imports, possible with stale symbol files, the start recurses for ever; the theorems assume acyclic imports."
 },
 "C76": {
  "note": "The first element is a spare place: MinDigit never looks at it, so a number that reaches it is no longer multiplied correctly (example in LongIntProps). BPower with a power beyond the length of the array leaves the array; this is outside the theorem."
 },
 "C77": {
  "note": "Adler32 reduces its sums every 5552 bytes, a number computed for unsigned 32-bit sums; LONGINT is signed here, so 5552 bytes of 255 overflow (C77_adler_refuted). Proved: exact for pieces of up to 3854 bytes, and for any length if no byte exceeds 115."
 },
 "C78": {
  "note": "The additions of signed LONGINTs overflow on every block, so by the rules of C the program is undefined even for the empty message (C78_digest_refuted); the theorem is about a compiler whose additions wrap around. Messages of 2^29 bytes or more get a wrong length word (in[15] is always 0)."
 },
 "C79": {
  "note": "The last clause is refuted: Random and Uniform return 1.0 for some states (rounding), Uniform stays at 1.0 for ever from seed 0, and InitSeed accepts negative seeds, from which the step can overflow."
 },
 "C80": {
  "note": "Lengths, export marks, flags and the names of fields and parameters are left out. The forward pointer binds to a type of an outer scope of the same name even if the scope declares its own one later (the rules here say the same: the name is visible)."
 },
 "C81": {
  "note": "Proved: consistency of all chains, calls, at most one body, acceptance of lawful modules. Refuted: every procedure has a body (a forward declaration that redefines an inherited procedure needs none: error 129 is suppressed because the set of marks is not empty), and distinct names (a procedure of a base type may be declared with the name of a field of an extension). Proved part: every procedure that redefines nothing has a body."
 },
 "C82": {
  "note": "Values of constant expressions are the subject of the properties on folding; here their errors and result types are parameters. Operands with the error type are excluded. SYSTEM.ADR and SYSTEM.CC are not modelled."
 },
 "C83": {
  "note": "Refuted in full: a guard with a pointer to an array of records is accepted on a pointer to such a record; a negative index in an expression without side effects and the constant index 0 of an empty open array are not stopped. The partial theorems exclude these cases. Type-bound procedures as selectors are not modelled here; storage does not change during the evaluation of one designator."
 },
 "C84": {
  "note": "Refuted in full: LEN accepts the name of a type; GET and NEW of SYSTEM write read-only variables; a constant ASH or ENTIER can exceed its type LONGINT. ASH of the lowest 64-bit constant is undefined behaviour in the compiler. SYSTEM.ADR, SYSTEM.CC and warnings are not modelled; GETREG and PUTREG are always rejected, because the highest register number is -1."
 },
 "C85": {
  "note": "Refuted beyond 28 February 2100: the day after it becomes 29 February 2100, and 1 January 2101 is numbered one too high. The exactness of the LONGREAL products and quotients in oocJulianDay is argued in a comment, not proved."
 },
 "C86": {
  "note": "Refuted in full: INTEGER wraps when the last 59 amounts are added to minutes or seconds, and AddTime overflows LONGINT for the last 59 seconds. Scale and Fraction (LONGREAL) are not modelled."
 },
 "C87": {
  "note": "Refuted in full: a parameter ARRAY OF ARRAY 4 OF T is declared as an array of pointers, and an open array type with a name whose elements are pointers without a name loses a star (C87_elements_refuted, C87_named_refuted); these are excluded in the partial theorems. Names are taken as defined already; the fields of records are in C43."
 },
 "C88": {
  "note": "Refuted in full: POINTER TO ARRAY OF RECORD p: P END with the pointer's own name P makes the compiler recurse for ever (C88_ends_refuted); a type-bound procedure that uses a type containing its record is accepted or rejected depending on the order of the type names (C88_accepts_refuted); an array of a record without a name may be defined before the structure of that record (C88_struct_refuted). The text of the items is in C87 and C43."
 },
 "C89": {
  "note": "Sums of parameters beyond 2^31-1 are excluded in the _partial theorems. With INTEGER of 4 bytes Delete(s, 5, MAX(INTEGER)) overflows (C89_delete_refuted). CAP masks every character with 5FH, so Capitalize turns digits into control characters and cuts the string at the first blank (C89_capitalize_refuted); for letters it is right (C89_capitalize_partial)."
 },
 "C90": {
  "note": "Next to a power of ten the rounding carry is not reflected in the exponent, which has been written already, so the text may be ten times too small: 10-2^-21 is written 1.0E+00 (C90_exponent_refuted). The accuracy theorem therefore excludes such numbers. For very small numbers the first digit may be zero (C90_leading_refuted). Denormal numbers are written as zero (C90_denormal_refuted)."
 },
 "C91": {
  "note": "A refused interface change deletes the old symbol file, so the same command succeeds when it is repeated (C91_refused_refuted). If another directory comes first on the search path, a stale symbol file may stay beside a new object file (C91_object_refuted); if an equal symbol file is found in a library, none is written beside the object file (C91_local_refuted)."
 },
 "C92": {
  "note": "Together with C59 (the collector keeps what is reachable from the roots) and C58, C63."
 },
 "C93": {
  "note": "Proved for at most 30 font names and 62 kinds of elements, without fonts and without CR LF in ascii pieces. Refuted: fonts do not come back, so a loaded text cannot be stored again (trap); CR LF of an ascii file becomes two line ends; a run after the 31st font traps; Load mistakes a text whose header length ends in the bytes 1 and 240 for one with the old tag. Elements are loaded as aliens (their modules absent); System 3 documents, the backup file of Close and 64-bit LONGINT are not modelled."
 },
 "C94": {
  "note": "Proved for builds from the start in any order that respects imports, and for commands that fit. Refuted: a module that gets a further import while its exports stay the same keeps its old symbol file, so the further module is not linked; the list of object files is cut off at 2048 characters without a message; static linking on Darwin does not quote the directory. Shell characters other than blanks and quotes are excluded; the Microsoft compiler is not modelled."
 },
 "C95": {
  "note": "The full claim fails. Fill of a buffer that still has unread bytes moves them to the beginning but leaves the position behind them, so they are skipped and later reads leave the memory. Reread lets the position go before the beginning. Fill and Drain copy overlapping memory with memcpy when the remaining bytes are more than those consumed or taken, although the head of the module says that moves never overlap."
 },
 "C96": {
  "note": "Buffers are referred to by index, so a reader that has read a string ending exactly at the end of the last buffer is not distinguished from one whose next buffer was appended later; such a reader never touches that buffer. The underlying text and string streams are taken as providing the bytes written to them."
 },
 "C97": {
  "note": "Proved for arrays with room for the whole name; C97_path_refuted shows that an array with room for the file name only gets nothing, because the name is truncated before the path is deleted. C97_dot_refuted: a name that ends with a period loses it on the way through GetExt and AddExt. C97_user_refuted and C97_home_refuted: the user is compared with the first 31 characters of a line, so a named user is never found and the current user's directory is taken, while the empty line read at the end of the file counts as the user with the empty name, so that a tilde alone is not expanded; C97_expand_partial covers names without a tilde."
 },
 "C98": {
  "note": "C98_match_partial: right for all patterns without question marks. With question marks the claim is false: C98_empty_refuted (a question mark followed by a star is found in the empty string), C98_bounds_refuted (index trap), C98_behind_refuted (the result depends on the characters behind the end)."
 },
 "C99": {
  "note": "C99_stream_partial: right for every state set with SetSeeds; C99_exists: every state has a sequence. C99_seed_refuted: SetSeed overflows a LONGINT for every seed, which has no defined meaning in C; C99_unseeded_refuted: so does the first call without a seed. C99_real_refuted: Real is negative for half of the numbers. C99_range_refuted: IntRange copies two bytes where four were meant and multiplies without the long type, so its result is out of range or undefined."
 },
 "C100": {
  "note": "C100_text_partial: right for all histories in which no truncation gives up a block of 512 bytes. C100_trunc_refuted: after such a truncation the counter is one less than the number of buffers kept, so the remaining bytes are read as zeros from a new buffer. C100_close_refuted: if the counter became 0, closing does not release the old buffer, and what is written afterwards is not what is read."
 },
 "C101": {
  "note": "Proved for dependencies without cycles: all calls return, counts, keys, propagation of all changes to exactly the dependants, permanence of termination. Refuted: a resource may depend on itself and then notifications never return; a terminated resource made dependent afterwards is reported as stopped; an unreferenced dependant never gives its key back."
 },
 "C102": {
  "note": "Proved: all histories behave like the map, Seek through forwards finds the first on the way, calls return if the chain ends, Add makes a new identifier visible, Unique counts up to 2^31-1. Refuted: Add through an object that forwards and has the identifier itself leaves the old discipline visible; Remove can uncover another one; circles of forwards are accepted and then nothing returns."
 },
 "C103": {
  "note": "Proved: differences exact and in range, sums exact, sum minus part, comparison, setting with microseconds in range (also negative seconds). Refuted for all inputs of the branch: negative microseconds are added instead of subtracted; a million microseconds or more give negative seconds and one second too much, or an overflow. Refuted: a sum with exactly one million microseconds is not carried and compares as earlier than the same time. Seen but outside the model: GetValue of a time of another scale converts an uninitialised variable instead of its argument."
 },
 "C104": {
  "note": "Missing: errors of devices and forwarding to other streams; ReadChar, ReadInteger and ReadReal are the same code as the modelled ones. Refuted: Seek has a value parameter, so a stream with an attached interface makes every call follow a NIL pointer. Refuted: a constant string of less than 512 characters that contains 0X is cut at it, although its full length is sent. Real numbers travel in the byte order of the machine, unlike integers.",
  "status": "partial"
 },
 "C105": {
  "note": "Proved for all numerals other than zero, for acceptance of numerals only, for empty strings for the value of every accepted string and for the length of the shortest numeral of every integer. Refuted for all numerals of zero: the start index stays -1, so that with nine characters in front of the terminator the code reads before the string, and with more the zero is reported as out of range. Strings are shorter than 2^15 characters; LONGINT has 32 bits (with 64 bits the limits are still those of 32 bits).",
  "status": "partial"
 },
 "C106": {
  "note": "Proved: Length, Insert, Append, Delete, Replace and Pos for all strings and arrays; Extract unless the number of characters is exactly the size of the array; Cap for strings of letters. Refuted: Extract of exactly as many characters as the array has elements traps. Refuted: Cap keeps only the bits of 5FH, so that a blank ends the string and digits become control characters.",
  "status": "partial"
 },
 "C107": {
  "note": "Missing: errors of the output stream. Refuted for all texts: without a number, a key that is too short is not reported, the text is cut and one byte of it is lost. Refuted: without a number the counter still runs down and overflows, at once if the lowest number is given.",
  "status": "partial"
 }
}