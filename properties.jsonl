{"id": "C01", "title": "DIV and MOD are floored division at run time", "statement": "For integer operands x and y # 0, the compiled program's x DIV y is the floor of the exact quotient and x MOD y is the remainder with the sign of y, x = (x DIV y)*y + x MOD y, and no C undefined behaviour (overflow, division trap) happens while computing them.", "quantifier": "all pairs of 64-bit operands", "why_tests_cant": "2^128 operand pairs; the interesting ones are at sign changes and at the ends of the range", "anchors": ["src/runtime/SYSTEM.c: SYSTEM_DIV, SYSTEM_MOD", "src/runtime/SYSTEM.h: __DIV, __MOD, __DIVF, __MODF"]}
{"id": "C02", "title": "ABS returns the absolute value", "statement": "ABS(x) of an integer x is |x| for every x whose absolute value is representable in x's type, for both code shapes the compiler emits (inline and via the run-time routine).", "quantifier": "all integers of each width", "why_tests_cant": "the value space is 2^64 and the two emitted forms differ only for particular operand shapes", "anchors": ["src/runtime/SYSTEM.h: __ABS, __ABSF, SYSTEM_ABS32, SYSTEM_ABS64"]}
{"id": "C03", "title": "Shifts and rotates", "statement": "ASH(x,n) is floor(x*2^n) reduced to the operand width, SYSTEM.LSH shifts in zeros and discards bits, SYSTEM.ROT is a rotation: it permutes the bits of its operand cyclically and ROT by n then by -n is the identity.", "quantifier": "all operand values, widths 8..64 and shift counts with |n| below the width", "why_tests_cant": "space of value x count x width; C leaves several of the shifts undefined", "anchors": ["src/runtime/SYSTEM.h: __ASH, __LSH, __ROT, __ASHL, __ASHR, __ASHF"]}
{"id": "C04", "title": "SET operations are finite-set operations", "statement": "Set constructors {a}, {a..b}, IN, INCL, EXCL and the operators + - * / on a SET variable compute exactly the mathematical set operations on the elements 0..N-1.", "quantifier": "all sets, all elements 0 <= e < 32 resp. 64 and all ranges", "why_tests_cant": "2^64 sets and all element pairs", "anchors": ["src/runtime/SYSTEM.h: __SETOF, __SETRNG, __IN", "src/compiler/OPV.Mod: expr, stat (incl/excl)", "src/compiler/OPB.Mod: SetRange, SetElem"]}
{"id": "C05", "title": "Run-time checks stop the program exactly when a value is out of range", "statement": "With checks enabled an array index, a CHR argument, a SHORT argument and a value range check either pass the value through unchanged when it is in range or stop the program with the documented trap; they never alter an in-range value nor let an out-of-range one pass.", "quantifier": "all index values, array lengths and destination widths", "why_tests_cant": "indices and lengths range over 64-bit integers", "anchors": ["src/runtime/SYSTEM.h: __X, __XF, __R, __RF, __CHR, __CHRF, __SHORT, __SHORTF", "src/runtime/SYSTEM.c: SYSTEM_* check helpers"]}
{"id": "C06", "title": "String comparison is lexicographic order", "statement": "For 0X-terminated character arrays, the relations = # < <= > >= are those of the lexicographic order on the character sequences before the terminator: a total order, independent of what follows the terminator.", "quantifier": "all pairs of 0X-terminated arrays", "why_tests_cant": "unbounded lengths and contents", "anchors": ["src/runtime/SYSTEM.h: __STRCMP, __str_cmp"]}
{"id": "C07", "title": "COPY truncates safely", "statement": "COPY(s,d) always leaves d 0X-terminated, holding the longest prefix of s that fits in LEN(d)-1 characters; no element of d after the terminator changes and nothing outside d is written.", "quantifier": "all sources and all destination lengths >= 1", "why_tests_cant": "lengths are unbounded; the boundary is exactly LEN(d)-1", "anchors": ["src/runtime/SYSTEM.h: __COPY"]}
{"id": "C08", "title": "Type tests decide extension", "statement": "x IS T (and the guard x(T)) succeeds exactly when the dynamic type of x is T or a direct or indirect extension of T, for every type hierarchy within the supported nesting depth.", "quantifier": "all type hierarchies and all pairs of types in them", "why_tests_cant": "the hierarchy is an arbitrary tree built by separately compiled modules", "anchors": ["src/runtime/SYSTEM.h: __IS, __ISP, __GUARDP, __GUARDR, __INITYP, MAXEXT", "src/runtime/Heap.Mod: REGTYP", "src/compiler/OPC.Mod: InitTDesc"]}
{"id": "C09", "title": "Type-bound procedure calls dispatch to the most specific override", "statement": "A call of a type-bound procedure executes the body declared for the dynamic type of the receiver if it (re)declares that procedure, otherwise the one inherited from its nearest base that does.", "quantifier": "all hierarchies and all sets of overrides", "why_tests_cant": "an arbitrary tree of types with arbitrary override sets", "anchors": ["src/runtime/SYSTEM.c: SYSTEM_INHERIT", "src/runtime/SYSTEM.h: __INITBP, __SEND, __TDESC", "src/compiler/OPV.Mod: GetTProcNum, TraverseRecord"]}
{"id": "C10", "title": "NEW returns fresh, disjoint, cleared storage", "statement": "In every history of allocations and collections of a program whose heap could be initialised, NEW returns a block that is large enough, aligned, cleared to zero and overlaps no other live block; or returns NIL only when the heap cannot be extended.", "quantifier": "all allocation/collection histories and block sizes", "why_tests_cant": "the free lists are history dependent", "anchors": ["src/runtime/Heap.Mod: NEWREC, NEWBLK, NewChunk, ExtendHeap"]}
{"id": "C11", "title": "The collector marks exactly the reachable objects and leaves the graph intact", "statement": "Marking from a root visits every object reachable through the pointers its type descriptor lists, marks no other object, terminates on every (cyclic, shared, arbitrarily deep) graph, and leaves every pointer field with the value it had before.", "quantifier": "all finite heap graphs and roots", "why_tests_cant": "pointer-reversal traversal; errors show only on particular graph shapes", "anchors": ["src/runtime/Heap.Mod: Mark, MarkP"]}
{"id": "C12", "title": "Sweeping frees exactly the unmarked blocks and merges neighbours", "statement": "After a sweep every previously marked block is live and unmarked with contents untouched, every other byte of the heap belongs to exactly one free block, no two free blocks are adjacent, and every free block is on the list for its size.", "quantifier": "all heaps (any number of chunks and blocks)", "why_tests_cant": "unbounded number and order of blocks", "anchors": ["src/runtime/Heap.Mod: Scan"]}
{"id": "C13", "title": "Conservative stack scanning keeps every block a candidate points to", "statement": "Given any list of candidate words, exactly the blocks of the heap into which a candidate points (at the first byte of the object or behind it), and everything reachable from them, are marked; all other candidates are ignored without being dereferenced.", "quantifier": "all candidate lists, all heaps", "why_tests_cant": "candidates are arbitrary machine words", "anchors": ["src/runtime/Heap.Mod: MarkCandidates, HeapSort, Sift, MarkStack"]}
{"id": "C14", "title": "Sorting the candidates", "statement": "The in-place sort used by the collector produces an ascending permutation of its input and touches only the given prefix of the array.", "quantifier": "all arrays and lengths", "why_tests_cant": "unbounded lengths and contents", "anchors": ["src/runtime/Heap.Mod: Sift, HeapSort"]}
{"id": "C15", "title": "Finalizers run once, only on unreachable objects", "statement": "A finalizer registered for an object is called at most once, never while the object is reachable at a collection, and is called for every remaining registered object at program exit.", "quantifier": "all histories of registrations and collections", "why_tests_cant": "history dependent", "anchors": ["src/runtime/Heap.Mod: RegisterFinalizer, CheckFin, Finalize, FINALL"]}
{"id": "C16", "title": "Module registry and reference counts", "statement": "After any sequence of module registrations and unload requests, a module can be unloaded only when no registered module imports it, unloading releases exactly its own imports, and lookups by name find the registered modules.", "quantifier": "all sequences of registrations, imports and unloads", "why_tests_cant": "history dependent", "anchors": ["src/runtime/Heap.Mod: REGMOD, INCREF, FreeModule", "src/runtime/Modules.Mod: ThisMod, Free"]}
{"id": "C17", "title": "Variable-length integers round-trip", "statement": "Reading a number written with Files.WriteNum gives back the same number and consumes exactly the bytes written, whatever follows, and the bytes identify the number uniquely.", "quantifier": "all 64-bit integers", "why_tests_cant": "2^64 values", "anchors": ["src/runtime/Files.Mod: WriteNum, ReadNum", "src/compiler/OPM.Mod: SymWInt, SymRInt"]}
{"id": "C18", "title": "Fixed-size values round-trip in little-endian order", "statement": "ReadInt/ReadLInt/ReadSet/ReadBool (and the real formats byte for byte) return what the corresponding Write stored; the file bytes are the documented little-endian encoding and each pair transfers the same number of bytes.", "quantifier": "all values of each type", "why_tests_cant": "2^16..2^64 values per type", "anchors": ["src/runtime/Files.Mod: ReadInt, WriteInt, ReadLInt, WriteLInt, ReadSet, WriteSet, ReadBool, WriteBool, FlipBytes"]}
{"id": "C19", "title": "Strings round-trip through files", "statement": "A 0X-free string written with WriteString is read back by ReadString if the destination is long enough; ReadLine returns the text up to the end of line without the line terminator.", "quantifier": "all strings and destination lengths", "why_tests_cant": "unbounded", "anchors": ["src/runtime/Files.Mod: ReadString, WriteString, ReadLine"]}
{"id": "C20", "title": "Files behave as byte arrays seen through riders", "statement": "Whatever sequence of Set, Read, ReadBytes, Write, WriteBytes, Length, Pos and Purge is performed through any number of riders on a file, the bytes read, positions, lengths, transfer counts and the resulting file content are those of a flat byte array with one position per rider; the internal cache of four buffers is not observable in them (a rider's eof flag may only be the flat array's or a stale one).", "quantifier": "all operation histories, any number of riders and positions", "why_tests_cant": "buffer replacement makes behaviour depend on the whole history", "anchors": ["src/runtime/Files.Mod: Set, Read, ReadBytes, Write, WriteBytes, Flush, Close, Length, Pos, Purge, New, Old"]}
{"id": "C21", "title": "Registering publishes a complete file and never a partial one", "statement": "A file created with Files.New is invisible under its name until Register; if the program stops at any point before, the previous file of that name is intact; after Register the name denotes exactly the bytes written.", "quantifier": "all write histories and all stop points", "why_tests_cant": "crash points cannot be enumerated by unit tests", "anchors": ["src/runtime/Files.Mod: New, Create, Register, Close, Rename"]}
{"id": "C22", "title": "Path name helpers", "statement": "Splitting, canonicalising and joining path names never change which file is denoted: canonical form is idempotent, absolute paths stay absolute, '.', '..' and repeated separators are resolved as the file system does.", "quantifier": "all path strings", "why_tests_cant": "unbounded strings", "anchors": ["src/runtime/Modules.Mod: Canonify, Trim, ExtractPart, AppendPart, IsAbsolute", "src/runtime/Files.Mod: MakeFileName, ScanPath, HasDir"]}
{"id": "C23", "title": "Out.Int prints the decimal numeral", "statement": "Out.Int(x,n) prints the shortest decimal numeral of x, with a minus sign for negative x, left-padded with blanks to at least n characters.", "quantifier": "all 64-bit x (including the most negative) and all field widths", "why_tests_cant": "2^64 values", "anchors": ["src/runtime/Out.Mod: Int"]}
{"id": "C24", "title": "Out.Hex prints the hexadecimal numeral", "statement": "Out.Hex(x,n) prints at least n hexadecimal digits denoting x as an unsigned 64-bit number, with no superfluous leading zeros beyond width n.", "quantifier": "all 64-bit x and widths", "why_tests_cant": "2^64 values", "anchors": ["src/runtime/Out.Mod: Hex"]}
{"id": "C25", "title": "Output buffering is invisible", "statement": "The bytes delivered to standard output after a flush are exactly the concatenation of everything written, in order, whatever the interleaving of Char, String and Flush calls.", "quantifier": "all histories of output calls", "why_tests_cant": "history dependent", "anchors": ["src/runtime/Out.Mod: Char, String, Flush, Ln"]}
{"id": "C26", "title": "In reads back what Out wrote", "statement": "In.HugeInt applied to the text printed by Out.Int returns the same number with Done = TRUE; hexadecimal input with suffix H is read as unsigned-to-signed 64-bit; the character after the number is not consumed.", "quantifier": "all 64-bit numbers, all followers", "why_tests_cant": "2^64 values", "anchors": ["src/runtime/In.Mod: HugeInt, Int, LongInt, Char, ReadChar, StartRead", "src/runtime/Out.Mod: Int"]}
{"id": "C27", "title": "In.Line and In.String split the input without losing characters", "statement": "Each input character is delivered exactly once: reading lines, quoted strings and characters partitions the input; no character is lost or duplicated across calls by the one-character look-ahead.", "quantifier": "all inputs and all sequences of calls", "why_tests_cant": "history dependent", "anchors": ["src/runtime/In.Mod: Line, String, Char, ReadChar"]}
{"id": "C28", "title": "Strings.Append concatenates or truncates to a valid string", "statement": "Append(extra,dest) leaves dest = dest ++ extra truncated to the capacity of dest and always 0X-terminated.", "quantifier": "all strings and capacities", "why_tests_cant": "boundary at exact capacity", "anchors": ["src/runtime/Strings.Mod: Append, Length"]}
{"id": "C29", "title": "Strings.Insert, Delete, Replace and Extract follow their documentation", "statement": "Insert(src,pos,dst) puts src before position pos, Delete(s,pos,n) removes n characters from pos, Replace(src,pos,dst) has the effect of Delete(dst,pos,Length(src)) followed by Insert(src,pos,dst), Extract(src,pos,n,dst) extracts the n characters at pos; with the documented clipping when pos or n exceed the string.", "quantifier": "all strings, positions and counts, all capacities", "why_tests_cant": "unbounded; the documented special cases interact", "anchors": ["src/runtime/Strings.Mod: Insert, Delete, Replace, Extract"]}
{"id": "C30", "title": "Strings.Pos finds the first occurrence", "statement": "Pos(pat,s,pos) returns the least index i >= pos at which pat occurs in s, and -1 exactly if there is none.", "quantifier": "all patterns, strings and start positions", "why_tests_cant": "unbounded", "anchors": ["src/runtime/Strings.Mod: Pos"]}
{"id": "C31", "title": "Strings.Match is wildcard matching", "statement": "Match(string,pattern) is true exactly when string is in the language of pattern, where * stands for any (possibly empty) sequence and every other character for itself.", "quantifier": "all strings and patterns", "why_tests_cant": "backtracking over several stars", "anchors": ["src/runtime/Strings.Mod: Match"]}
{"id": "C32", "title": "Texts behave as character sequences", "statement": "Texts and buffers behave as sequences of items (character or element, font, colour, offset). In every history of Open, OpenBuf, OpenWriter, SetFont/SetColor/SetOffset, Write, WriteElem, Copy, Recall, Save, Insert, Append, Delete, ChangeLooks, OpenReader and Read, each notification, length, recalled buffer and character read is the one the same operations on plain sequences give, with positions beyond the end meaning the end; no call traps or loops; how a text is cut into pieces and what is cached is not observable. A client must respect these rules, each of which is necessary: the text has been opened from a plain file (deleting inside a piece of a text loaded from the Oberon text format is a NIL trap); no empty range is saved from inside a piece (a reader then shows characters of the other text); a text from a plain file that is read contains no carriage return (a line end CR LF cut in two makes the reader skip what lies between); a writer's buffer to which something was saved or copied is emptied before the next Write (the character written is lost otherwise); a buffer is not copied to itself (the call never ends); ranges are in order.", "quantifier": "all histories of edits on any number of texts, buffers and writers, of any length", "why_tests_cant": "piece lists depend on the whole edit history", "anchors": ["src/runtime/Texts.Mod: Find, Split, Merge, Splice, Clone, OpenBuf, Copy, Recall, Save, Insert, Append, Delete, ChangeLooks, OpenReader, Read, OpenWriter, Write, WriteElem, Open, Load0"]}
{"id": "C33", "title": "Texts.WriteInt, WriteHex and the text scanner agree", "statement": "Scanning the text produced by Texts.WriteInt returns the same integer as class Int; WriteHex prints eight hexadecimal digits that denote the number.", "quantifier": "all 32-bit integers and widths", "why_tests_cant": "2^32 values x widths", "anchors": ["src/runtime/Texts.Mod: WriteInt, WriteHex, Scan, Write"]}
{"id": "C34", "title": "Dates and times survive packing", "statement": "The packed clock and date values determine year (mod 100), month, day, hour, minute and second: packing then unpacking (as Texts.WriteDate does) returns the original fields.", "quantifier": "all valid dates and times", "why_tests_cant": "every combination of six fields", "anchors": ["src/runtime/Platformunix.Mod: YMDHMStoClock, GetClock", "src/runtime/Texts.Mod: WriteDate"]}
{"id": "C35", "title": "Integer literals are read exactly or rejected", "statement": "The scanner gives every decimal, H-hexadecimal and X-character literal its mathematical value, and reports an error for exactly the literals that exceed the representable range; no literal is silently wrapped.", "quantifier": "all digit strings of any length", "why_tests_cant": "unbounded literal length; boundary at 2^63", "anchors": ["src/compiler/OPS.Mod: Number"]}
{"id": "C36", "title": "Comments nest", "statement": "A comment extends from (* to its matching *), comments nest to any depth, the scanner resumes with the character after the matching *) and an unmatched (* is reported as an error at end of text.", "quantifier": "all texts", "why_tests_cant": "arbitrary nesting", "anchors": ["src/compiler/OPS.Mod: Get, Comment"]}
{"id": "C37", "title": "Keywords and identifiers are told apart", "statement": "A letter followed by letters and digits (taken maximally) is classified as a reserved word exactly if it is spelled like one of the Oberon-2 keywords, otherwise as an identifier with that spelling (or an error when it has more than 255 characters).", "quantifier": "all identifiers", "why_tests_cant": "unbounded set of identifiers", "anchors": ["src/compiler/OPS.Mod: Get, Identifier"]}
{"id": "C38", "title": "String literals denote their contents", "statement": "A quoted literal denotes exactly the characters between the quotes; an unterminated or overlong literal or one with a control character is reported.", "quantifier": "all source texts", "why_tests_cant": "unbounded", "anchors": ["src/compiler/OPS.Mod: Str"]}
{"id": "C39", "title": "Constant expressions are evaluated exactly or rejected", "statement": "Folding +, -, *, DIV, MOD, unary - and ABS on integer constants gives the exact mathematical (floor) result, and reports an error when the result does not fit 64 bits; it never yields a wrapped value.", "quantifier": "all pairs of 64-bit constants", "why_tests_cant": "2^128 operand pairs", "anchors": ["src/compiler/OPB.Mod: ConstOp, MOp, StPar0 (ABS), StPar1 (ASH)"]}
{"id": "C40", "title": "Strength reduction preserves values", "statement": "Replacing multiplication, DIV and MOD by constants that are powers of two with shifts and masks, and dropping neutral operands, leaves the value of the expression and its side effects unchanged.", "quantifier": "all operand values and all constants", "why_tests_cant": "unbounded combinations of value and constant", "anchors": ["src/compiler/OPB.Mod: Op, log", "src/runtime/SYSTEM.h: __ASHL, __ASHR, __MASK"]}
{"id": "C41", "title": "Integer constants get the smallest sufficient type", "statement": "The type assigned to an integer constant is the shortest integer type whose range contains it, and widening/narrowing selection between integer types keeps every value of the shorter type representable.", "quantifier": "all 64-bit constants and all configured type sizes", "why_tests_cant": "boundaries of each width and size model", "anchors": ["src/compiler/OPT.Mod: IntSize, IntType, ShorterOrLongerType", "src/compiler/OPB.Mod: SetIntType", "src/compiler/OPM.Mod: SignedMaximum, SignedMinimum"]}
{"id": "C42", "title": "Record layout is sound and extensions are prefix-compatible", "statement": "Every field gets an offset aligned for its type, fields do not overlap, the record size covers them, and an extended record has its base record's fields at the same offsets, so base-typed access to an extension reads the right data.", "quantifier": "all record declarations (any nesting, any field list)", "why_tests_cant": "types are an unbounded recursive family", "anchors": ["src/compiler/OPT.Mod: TypSize, Align, SizeAlignment, BaseAlignment"]}
{"id": "C43", "title": "Generated C declarations lay fields out where the compiler assumes", "statement": "The C struct emitted for a record, with its padding members, has every field at the offset computed by the compiler under the C ABI's layout rule, and the pointer-offset table lists exactly the offsets of pointers in the record, in ascending order, for the collector.", "quantifier": "all record types", "why_tests_cant": "types are an unbounded recursive family", "anchors": ["src/compiler/OPC.Mod: FieldList, FillGap, PutPtrOffsets, NofPtrs", "src/compiler/OPT.Mod: TypSize"]}
{"id": "C44", "title": "Names resolve to the innermost visible declaration", "statement": "After any sequence of declarations and scope openings/closings, looking a name up finds the declaration of that name in the innermost enclosing scope that has one; a second declaration in the same scope is rejected and changes nothing.", "quantifier": "all declaration histories", "why_tests_cant": "history dependent search trees", "anchors": ["src/compiler/OPT.Mod: Insert, Find, FindField, OpenScope, CloseScope"]}
{"id": "C45", "title": "Interface fingerprints detect any single change", "statement": "Two interfaces that differ in exactly one fingerprinted word have different fingerprints, and fingerprinting is deterministic in the sequence of words.", "quantifier": "all word sequences", "why_tests_cant": "hash over unbounded sequences", "anchors": ["src/compiler/OPM.Mod: FingerprintBytes, FPrint, FPrintSet, FPrintReal", "src/compiler/OPT.Mod: FPrint*"]}
{"id": "C46", "title": "CASE labels: overlap is always detected", "statement": "A CASE statement is accepted exactly when its label ranges are pairwise disjoint, and an accepted statement selects for each value the (unique) branch whose labels contain it.", "quantifier": "all label lists", "why_tests_cant": "unbounded label lists and ranges", "anchors": ["src/compiler/OPP.Mod: CaseLabelList, CasePart", "src/compiler/OPV.Mod: CaseStat"]}
{"id": "C47", "title": "FOR loops run the documented iterations", "statement": "FOR v := a TO b BY s executes its body for a, a+s, ... up to the last value not beyond b, evaluates a and b once, and terminates.", "quantifier": "all bounds and non-zero steps", "why_tests_cant": "loop behaviour at the ends of the range", "anchors": ["src/compiler/OPP.Mod: StatSeq (for)"]}
{"id": "C48", "title": "Integer constants in the generated C have the right value", "statement": "The C text emitted for an integer constant is a C expression of the right value and sufficient type for every constant, including the most negative ones.", "quantifier": "all 64-bit constants", "why_tests_cant": "2^64 values; C's rules for literals at INT_MIN", "anchors": ["src/compiler/OPM.Mod: WriteInt, WriteHex", "src/compiler/OPC.Mod: IntLiteral"]}
{"id": "C49", "title": "String and character literals in the generated C denote the same bytes", "statement": "The C string/character literal emitted for any Oberon string or character denotes under C's lexical rules exactly the same bytes, for all byte values and all adjacent characters.", "quantifier": "all byte strings", "why_tests_cant": "escape sequences interact with the next character; trigraphs", "anchors": ["src/compiler/OPC.Mod: StringLiteral, CharacterLiteral, UpperCase/Case"]}
{"id": "C50", "title": "Generated C expressions parse back to the intended tree", "statement": "The parentheses emitted around operators are sufficient: reading the emitted C expression with C's precedence and associativity yields the operator tree the compiler intended.", "quantifier": "all expression trees", "why_tests_cant": "unbounded trees", "anchors": ["src/compiler/OPV.Mod: expr, Precedence, design"]}
{"id": "C51", "title": "Dead-branch elimination preserves behaviour", "statement": "Removing IF branches whose guard is a constant leaves the executed statement sequence unchanged for every valuation of the remaining guards.", "quantifier": "all IF/ELSIF/ELSE chains", "why_tests_cant": "unbounded chains", "anchors": ["src/compiler/OPB.Mod: OptIf"]}
{"id": "C52", "title": "Identifiers never collide with C keywords", "statement": "No Oberon identifier is emitted as a reserved C word or run-time macro listed by the compiler, and distinct identifiers of a scope stay distinct in the generated C.", "quantifier": "all identifiers", "why_tests_cant": "unbounded set of identifiers; perfect-hash lookup", "anchors": ["src/compiler/OPC.Mod: Ident, PerfectHash, InitKeywords", "src/compiler/OPV.Mod: Stamp"]}
{"id": "C53", "title": "Compiler options toggle", "statement": "On/off options given on the command line combine by toggling: an option given twice has no effect, order does not matter, and options given with one file do not leak to the next.", "quantifier": "all option strings and file lists", "why_tests_cant": "unbounded option strings", "anchors": ["src/compiler/OPM.Mod: ScanOptions, InitOptions, OpenPar"]}
{"id": "C54", "title": "Error positions are reported on the right line", "statement": "For every source text and position, the reported line number is one plus the number of line ends before the position and the displayed line is the line containing it.", "quantifier": "all texts and positions", "why_tests_cant": "unbounded texts, mixed line ends", "anchors": ["src/compiler/OPM.Mod: FindLine, ShowLine, LogErrMsg"]}
{"id": "C55", "title": "Assignment compatibility is safe", "statement": "Whenever the compiler accepts an assignment, the value the destination shows afterwards is a value of the destination's type and represents the source value: integers and sets keep their value, arrays and strings fit with their terminating 0X, records and pointers only go from extensions to bases, procedures have the parameters and result of the variable's type. Numbers assigned to real types are exact when the real type is wide enough and rounded otherwise. The check ends whenever nests of procedure types are finite, and it does not refuse the safe cases.", "quantifier": "all type tables of an error-free module, all pairs of types, all source values, all previous values of the destination", "why_tests_cant": "unbounded recursive family of types", "anchors": ["src/compiler/OPB.Mod: CheckAssign", "src/compiler/OPP.Mod: Extends", "src/compiler/OPT.Mod: EqualType/SameType"]}
{"id": "C56", "title": "Temporary file names never collide", "statement": "The hidden name under which an unregistered file is stored lies in the directory of its final name, differs from every final name that does not itself start with '.tmp.', and differs from the hidden name of every other file created by this process or by any other running process.", "quantifier": "all final names, current directories, counter values and process numbers", "why_tests_cant": "collisions need many files or particular process numbers", "anchors": ["src/runtime/Files.Mod: GetTempName", "src/runtime/Platformunix.Mod: PID"]}
{"id": "C57", "title": "Files are found along the search path in order", "statement": "Opening a name containing '/' tries exactly that name; otherwise the directories of the search path (fields separated by ';', outer blanks ignored, '~' and '~user' expanded) are tried in order, the first that has the file wins, and NIL means that none has it.", "quantifier": "all search paths, home directories, file names and file systems", "why_tests_cant": "unbounded strings and arbitrary sets of existing files", "anchors": ["src/runtime/Files.Mod: ScanPath, HasDir, Old, SetSearchPath"]}
{"id": "C58", "title": "Heap arrays are described to the collector exactly", "statement": "NEW of a pointer to an array returns storage for all elements, with the lengths of the open dimensions stored for index checks, cleared elements, and a description from which the collector finds exactly the pointers in the elements.", "quantifier": "all element types (no pointers, pointers, records with pointers), numbers of dimensions and lengths", "why_tests_cant": "a wrong description shows only when a collection happens at the wrong time", "anchors": ["src/runtime/SYSTEM.c: SYSTEM_NEWARR", "src/runtime/Heap.Mod: NEWBLK", "src/compiler/OPV.Mod: NewArr"]}
{"id": "C59", "title": "Garbage collection is invisible to programs", "statement": "A program gives the same outputs on the storage manager, for every placement of its variables, every heap history, every position of collections and every content of the rest of the stack, as it would if objects lived for ever; only NEW giving NIL when the operating system refuses memory can differ.", "quantifier": "all programs over record objects (sequences of NEW, assignments, field reads and writes, comparisons, collections), all type descriptors, all answers of the operating system", "why_tests_cant": "whether an object survives depends on the whole history", "anchors": ["src/runtime/Heap.Mod: NEWREC, GC, Mark, Scan, MarkStack, ExtendHeap, InitHeap"]}
{"id": "C60", "title": "Elements of open arrays", "statement": "Indexing an array whose lengths are known at run time only (an open array parameter or a heap array) selects the element at the row-major position: with indices in range every element lies inside the array, different index tuples select different elements, and a partly indexed array starts where its first element is.", "quantifier": "all numbers of dimensions, lengths, index expressions and compiler options, parameters and heap arrays", "why_tests_cant": "the subscript is an expression built from all index expressions; a misplaced parenthesis or length shows only for some numbers of dimensions and some lengths", "anchors": ["src/compiler/OPV.Mod: design (Nindex), Index, Len", "src/compiler/OPC.Mod: Len"]}
{"id": "C61", "title": "Arguments of calls are type-safe", "statement": "Whenever the compiler accepts an argument, a value parameter receives a value of its type, and a variable parameter is bound to a writable variable whose values are values of the formal type and whose own type is preserved by everything the procedure can store, including open arrays of any dimension and records passed as one of their base types; formals naming SYSTEM.BYTE or SYSTEM.PTR are excepted. A procedure variable accepts exactly the arguments its procedure accepts.", "quantifier": "all type tables, formal parameters, arguments and values", "why_tests_cant": "unbounded recursive family of types and values", "anchors": ["src/compiler/OPB.Mod: Param, DynArrParCheck, CheckParameters, CheckProc"]}
{"id": "C62", "title": "A client sees exactly what a module exports", "statement": "When a module has been compiled without error, importing its symbol file succeeds and the importing compiler then knows exactly the exported constants, types, variables and procedures of the module, each with the same visibility, value, type and parameters; records have the same exported fields at the same offsets, the same exported type-bound procedures, size, alignment and base type, recursive and shared types keep their structure, different types stay different, and everything known before is unchanged. After importing any number of modules that agree about the types they share, all their exported objects are seen and a type that reaches the client through several modules is one type.", "quantifier": "all modules (arbitrary graphs of types, records, signatures), all states of the importing compiler, all sequences of imports", "why_tests_cant": "type graphs are unbounded and cyclic, and each file is a preorder walk with back references whose reader fills in types while it is still reading their parts", "anchors": ["src/compiler/OPT.Mod: Export, OutStr, OutFlds, OutHdFld, OutSign, OutTProcs, OutConstant, OutObj, Import, InStruct, InTyp, InSign, InFld, InTProc, InMod, InLinks, InConstant, InObj, InsertImport, TypSize", "src/compiler/OPM.Mod: SymRInt, SymRSet, SymWInt, SymWSet"]}
{"id": "C63", "title": "Clients trace the pointers of imported records", "statement": "The table of pointer offsets that a client writes into its own type descriptors for an imported record type, as base type, field, array element or variable, lists exactly the offsets the declaring module lists, including those of pointers in fields that are not exported.", "quantifier": "all modules and record types, all nestings of hidden fields, all clients", "why_tests_cant": "a missing offset only matters when a collection happens while the hidden pointer is the last one to an object", "anchors": ["src/compiler/OPC.Mod: NofPtrs, PutPtrOffsets", "src/compiler/OPT.Mod: OutHdFld, OutFlds, InFld"]}
{"id": "C64", "title": "Integers and strings convert both ways (ooc library)", "statement": "StrToInt accepts exactly blanks, an optional sign and decimal digits whose value LONGINT can hold, and stores that value; it leaves its result parameter unchanged otherwise, reports strOutOfRange for numbers that do not fit and strEmpty for blank strings only. IntToStr stores the decimal text of every LONGINT, cut off to the length of the destination, LengthInt is the length of that text, and StrToInt reads back what IntToStr wrote. This holds for both sizes of LONGINT the library is built for.", "quantifier": "all strings, all LONGINT values, destination lengths, both type models (-O2, -OC)", "why_tests_cant": "all strings and 2^64 values; the interesting ones are at the ends of the range, where the intermediate products may overflow", "anchors": ["src/library/ooc/oocIntConv.Mod: ScanInt, WState, SState, FormatInt, ValueInt, LengthInt", "src/library/ooc/oocIntStr.Mod: StrToInt, IntToStr, Reverse", "src/library/ooc/oocStrings.Mod: Length"]}
{"id": "C65", "title": "Nested procedures use the variables of the activation they belong to", "statement": "A procedure declared inside another procedure, at any depth and under any recursion, reads and writes the variables of the activation of each enclosing procedure that it was called in (lexical scoping); after any call returns, the enclosing activations are seen exactly as before; no access ever reaches storage of an activation that has ended.", "quantifier": "every accepted program with any number, nesting depth, recursion and parameters of procedures, value/VAR/open-array/record parameters, procedure variables; every number of steps", "why_tests_cant": "the set of nesting and recursion patterns is unbounded, and a wrong scope pointer shows only when a specific interleaving of recursive activations uses a variable afterwards", "anchors": ["src/compiler/OPC.Mod: EnterProc, ExitProc, CompleteIdent, TypeOf, Len", "src/compiler/OPV.Mod: Stamp/leaf analysis, design, ActualPar, stat Nreturn, procedure end", "src/compiler/OPP.Mod: qualident (leaf flags)", "src/runtime/SYSTEM.h: __DUP, __DUPARR"]}
{"id": "C66", "title": "Control statements compile to C with the same control flow", "statement": "For every procedure body built from IF, CASE, WITH, WHILE, REPEAT, LOOP, EXIT, RETURN, HALT and ASSERT, nested in any way, with EXIT only inside LOOP, the generated C function (if chains, switch with break, while, do, for(;;), goto and exit labels) changes the state, returns and traps exactly as the Oberon statements do: EXIT leaves the innermost LOOP only, also from inside CASE, WHILE and REPEAT; a CASE runs the one arm whose labels include the value and otherwise the ELSE part or traps with -4; a WITH without matching guard traps with -7; a function that reaches its end traps with -3. The function is well-formed C: labels unique within the module, every goto has its label, every break is inside a loop or switch. Up to 32767 LOOPs per module.", "quantifier": "all procedure bodies, all actions, conditions and case expressions (as functions of the state), all starting states, all iteration bounds, all earlier label counts", "why_tests_cant": "the exit label scheme depends on nesting depth and on the order of EXITs; only finitely many nestings can be tried", "anchors": ["src/compiler/OPV.Mod stat, IfStat, CaseStat, ImplicitReturn", "src/compiler/OPC.Mod ExitProc", "src/runtime/SYSTEM.h __CASECHK __WITHCHK __RETCHK __ASSERT"]}
{"id": "C67", "title": "The parser accepts exactly the statements and expressions of the language and ends on every input", "statement": "For every sequence of symbols, correct or not, the parser for statement sequences and for expressions comes to an end. It reports no syntax error exactly when what it read is a statement sequence (expression) of the Oberon-2 grammar, and then returns the syntax tree the grammar gives it: operators bind by the four precedence levels and to the left, every ELSIF, ELSE and END belongs to the innermost open statement, and EXIT is accepted only inside LOOP. Each sequence of symbols has at most one tree.", "quantifier": "all finite sequences of symbols, all following symbols that can follow, all meanings of the names (module, variable, predeclared procedure, type-bound procedure)", "why_tests_cant": "infinitely many programs, and infinitely many erroneous ones: a single input on which error recovery does not move forward hangs the compiler", "anchors": ["src/compiler/OPP.Mod qualident, CheckSym, selector, ActualParameters, StandProcCall, Element, Sets, Factor, Term, SimpleExpression, Expression, CaseLabelList, StatSeq"]}
{"id": "C68", "title": "Assignments and parameters transfer whole values", "statement": "After an accepted assignment x := y the variable x holds the value of y (the elements of a shorter array, the characters of a string with the final 0X, the fields x has of an extended record) and no other byte of memory has changed; if x is a record whose dynamic type is not its static type the statement traps. A value parameter is a complete private copy of the actual, a VAR parameter is the actual variable itself, every open dimension of an open array parameter has the length of the actual (an ARRAY OF BYTE its size in bytes), and a record keeps its descriptor through any number of VAR parameters.", "quantifier": "all variables, values and types the compiler accepts, any nesting of open arrays and index depth of the actual, any memory contents, any chain of calls", "why_tests_cant": "size computations for all types and lengths; damage to neighbouring variables, reading beyond an object and aliasing show up only for particular layouts", "anchors": ["src/compiler/OPB.Mod Assign", "src/compiler/OPV.Mod Len, TypeOf, ActualPar, design (Neguard), stat (Nassign)", "src/compiler/OPC.Mod Len, EnterProc", "src/runtime/SYSTEM.h __MOVE, __DUP, __DUPARR, __GUARDEQR, __GUARDEQP"]}
{"id": "C69", "title": "Text survives the conversion to UTF-8 and back", "statement": "Encoding a character number below 2^31 writes exactly its UTF-8 encoding and a 0X at the given position and advances the position, or changes nothing and reports failure if there is no room; decoding an encoding anywhere in an array gives back the character and the position behind it. A string becomes the encoding of the longest prefix that fits, a UTF-8 string becomes the same characters in an array of LONGINT, INTEGER or CHAR ('_' for characters the 8-bit set lacks), and so every nonempty string survives the round trip. Bytes that are not a valid encoding are reported, and the loss of characters is reported.", "quantifier": "all character numbers, strings, array lengths, positions and previous array contents, both integer models", "why_tests_cant": "2^31 characters, arbitrary strings and every array length around the end of an encoding", "anchors": ["src/library/s3/ethUnicode.Mod UCStoUTF8, UCS2toUTF8, UCS4toUTF8, UTF8toUCS, UTF8toUCS2, UTF8toUCS4, UTF8toASCII, ASCIItoUTF8"]}
{"id": "C70", "title": "Arrays of SET behave as sets of any size", "statement": "Inclusion, exclusion and lookup of an element change or report exactly that element of the set; clearing and filling give the empty set and the set of all numbers the array has room for; union, difference, intersection, symmetric difference and complement, inclusion, equality, disjointness and emptiness tests, the number of elements and the last element are those of mathematical sets, also if several parameters are the same array and (in ulmSets) if the arrays have different lengths; a number outside the array traps.", "quantifier": "all arrays and lengths whose index fits the index variable, all elements, all aliasings of parameters, both integer models", "why_tests_cant": "every array length and word contents, aliasing of parameters, sizes at which 16-bit counters overflow", "anchors": ["src/library/v4/Sets.Mod Clear .. Intersect", "src/library/s3/ethSets.Mod", "src/library/ulm/ulmSets.Mod InitSet .. Card"]}
{"id": "C71", "title": "A set expression denotes in the compiled program the set it denotes in the language", "statement": "The C written for an expression of set type (variables of 32 or 64 elements, constructors with constant or variable elements and ranges, complement, union, difference, intersection, symmetric difference, constants and variables mixed in any way) computes the word with exactly the elements the expression denotes; so do assignment to a variable of either size, comparison for equality and the IN test. Assignment to a set type too small for the type of the expression, a constant element outside the type, and an empty constant range are reported as errors; legal expressions are not.", "quantifier": "all set expressions of any nesting, all values of the variables, both sizes of SET", "why_tests_cant": "unbounded nesting, combinations of the two set sizes, of folded constants and C integer types of literals, and all words", "anchors": ["src/compiler/OPB.Mod EmptySet, SetSetType, SetElem, SetRange, MOp, ConstOp, Convert, Op, In, CheckAssign", "src/compiler/OPC.Mod Constant", "src/compiler/OPV.Mod expr, SizeCast, Convert", "src/runtime/SYSTEM.h __SETOF, __SETRNG, __IN"]}
{"id": "C72", "title": "An integer or character expression has in the compiled program the value it has in the language", "statement": "The C written for an expression over integers of all sizes and characters (literals, variables, calls, negation, ABS, ORD, CHR, CAP, SHORT, LONG, ASH, +, -, *, DIV, MOD, in any nesting and mixture of types) computes the value of the expression whenever no part of it overflows its type; its type is that of the language. Assignment, the six relations, ODD, INC and DEC use exactly that value. An expression without a type (a character added to a number, ORD of a number) is rejected. With range checks, SHORT and CHR of a value outside the shorter type halt the program, and for constants are rejected.", "quantifier": "all expressions of any nesting, all values of variables and calls, the three size models, with and without range checks", "why_tests_cant": "unbounded nesting; strength reduction, folding, unification of types, C promotions and casts interact, and all 64-bit values count", "anchors": ["src/compiler/OPB.Mod MOp, ConstOp, Convert, Op, StPar0, StPar1, CheckAssign", "src/compiler/OPV.Mod expr, SizeCast, Convert, SideEffects", "src/compiler/OPC.Mod Constant, Increment", "src/runtime/SYSTEM.h __ABS, __ASH, __DIV, __MOD, __CAP, __SHORT, __CHR"]}
{"id": "C73", "title": "Every call written in an expression is executed exactly once, in order, with the value the language gives", "statement": "When an expression, designator or argument list that contains function calls (any nesting of arithmetic, shifts, set operations, relations, & and OR, type tests and guards, indexing, dereferencing, calls and type-bound calls) is executed, the program performs exactly the calls written, each once, from left to right, with the arguments written, except those that & and OR skip; the value or the run-time error is that of the language, whatever the called procedures do to memory. In particular the number of calls performed is at most the number written and equal to it when there is no & or OR and no error.", "quantifier": "all expressions of any nesting, all behaviours of the called procedures (results and memory may depend on the whole history), all settings of range, index and type checks", "why_tests_cant": "the C macros of the run-time header mention their arguments several times; whether a macro or a function is used is decided per operator and per operand by a conservative test, and the effect shows only for procedures whose second call differs", "anchors": ["src/compiler/OPV.Mod SideEffects, expr, design, Index, TypeOf, ActualPar, Len, SizeCast, Convert", "src/runtime/SYSTEM.h __X, __R, __SHORT, __CHR, __LSH, __ROT, __ASH, __DIV, __MOD, __ABS, __IN, __ISP, __GUARDP, __SEND"]}
{"id": "C74", "title": "The compiler accepts exactly the modules the grammar derives, and finishes on every text", "statement": "For every sequence of symbols the parser finishes, whatever errors the text contains. It reports no error if and only if the grammar of the language report derives a module from the symbols up to the final period: MODULE with its name, the import list, declarations of constants, types, variables and procedures in any order of sections, record, array, pointer and procedure types, export marks on the module level only, type-bound procedures, forward declarations, nested procedures with their name repeated at the end, and statements. The tree built is then the one the grammar gives, and the grammar gives only one.", "quantifier": "all sequences of symbols of any length and nesting, all meanings of names that may change from place to place", "why_tests_cant": "texts are unbounded and nested; that the error recovery has no endless loop and that no odd sequence of symbols slips through cannot be seen from samples", "anchors": ["src/compiler/OPP.Mod Module, Block, ProcedureDeclaration, GetCode, GetParams, Body, TProcDecl, Receiver, TypeDecl, Type, RecordType, ArrayType, PointerType, FormalParameters, CheckMark, CheckSysFlag"]}
{"id": "C75", "title": "Every module a program needs is executed exactly once, after the modules it imports", "statement": "When a program is started, the body of every module that the main module or the run-time system imports, directly or not, is executed exactly once, after the bodies of all modules it imports, and the body of the main module comes last, followed by the finalisation. If a body ends the program, it is the last thing executed. Each module is entered in the list of modules once, right before its body, with exactly its commands (exported procedures without parameters and result), after it has been counted as a client of each module it imports, as often as it imports it. The heap is made ready before everything, and the modules Heap, Platform and Modules are executed, in this order, before any other.", "quantifier": "all programs with any number of modules and any acyclic imports, aliases included, any declarations, and any set of bodies that end the program", "why_tests_cant": "the shapes of import graphs are unbounded; that a module reached by many paths is executed once and early enough in all of them cannot be shown by samples", "anchors": ["src/compiler/OPC.Mod InitImports, RegCmds, EnterBody, ExitBody", "src/compiler/OPT.Mod Import, Insert", "src/runtime/SYSTEM.h __DEFMOD, __REGMOD, __REGMAIN, __MODULE_IMPORT, __INIT, __FINI", "src/runtime/Modules.Mod Init", "src/runtime/Heap.Mod REGMOD, REGCMD, INCREF"]}
{"id": "C76", "title": "Long integers are multiplied, divided and shifted exactly (ooc library)", "statement": "For every array of digits to base 32768 whose first element is zero, multiplying by a number up to the base and adding a digit, adding a number of up to two digits, dividing by a number up to 65536 with remainder, multiplying by and dividing by any power of ten, and shifting by any number of digits within the array give exactly the result of the integer operation (quotients rounded down, shifts losing what leaves the array), without overflow and without touching anything outside the array, as long as the result needs no more than the places after the first.", "quantifier": "all arrays of any length of at least two, all digits, all multipliers, divisors and powers within the stated ranges, both sizes of INTEGER and LONGINT", "why_tests_cant": "carries and borrows run over any number of digits; the short cut that skips leading zeros is right only for particular positions of the first digit", "anchors": ["src/library/ooc/oocLongInts.Mod MinDigit, MultDigit, AddDigit, DivDigit, TenPower, BPower"]}
{"id": "C77", "title": "Check sums of data are the published ones, for any way of cutting the data (eth library)", "statement": "CRC32 of any piece of an array is the CRC-32 of the published polynomial, continuing from any earlier value, independent of where the piece lies and what surrounds it; checking a message in pieces gives the check sum of the message; two messages that differ only within four adjacent bytes never have the same CRC. Adler32 of any piece is the Adler-32 sum of RFC 1950, also when continued piece by piece.", "quantifier": "all contents, all lengths, all offsets, all starting values, all ways of cutting", "why_tests_cant": "the table-driven computation must agree with a polynomial division for every message; the postponed reduction modulo 65521 is only right if no sum overflows before it", "anchors": ["src/library/s3/ethZlib.Mod Adler32, InitCRCTable, CRC32"]}
{"id": "C78", "title": "Message digests are those of RFC 1321, for any way of writing the message (eth library)", "statement": "For every message of fewer than 2^29 bytes and every way of writing it to a context, character by character or in pieces of any length, the digest delivered at the end is the MD5 digest of RFC 1321, independent of what the arrays held before; its string form is the 32 hexadecimal digits.", "quantifier": "all messages, all sequences of writes, all contents of the uninitialised local variables", "why_tests_cant": "the buffering depends on the position within the block at each call and on the length of each piece; padding differs for the last eight positions of a block", "anchors": ["src/library/s3/ethMD5.Mod New, Write, WriteBytes, Close, Transform, ByteReverse, F1-F4, STEP1-STEP4, ToString"]}
{"id": "C79", "title": "Random numbers have full period (ooc and eth libraries)", "statement": "From every seed, after any history of setting seeds and drawing numbers, the generator computes 16807*z mod 2^31-1 without overflow, never leaves 1..2^31-2, and runs through all of these numbers exactly once before it repeats; RND(range) lies in 0..range-1; real numbers lie in 0 <= x < 1.", "quantifier": "all seeds, all ranges, all histories of PutSeed, RND and Random", "why_tests_cant": "the period has more than two thousand million steps, and the intermediate results come within a factor of the overflow for some states only", "anchors": ["src/library/ooc/oocRandomNumbers.Mod PutSeed, NextRND, RND, Random", "src/library/s3/ethRandomNumbers.Mod Uniform, InitSeed"]}
{"id": "C80", "title": "Declarations of types are accepted exactly by the rules, describe what they say, and never a type that contains itself", "statement": "A sequence of constant, type and variable declarations is accepted exactly when each name is new in its scope and each type follows the rules: names declared before use except behind a pointer in a type declaration, the name being declared only behind pointers and in procedure types, no open arrays as elements or fields, records extend records, pointers to records or arrays, procedures do not return them, at most 64 pointers declared ahead, and every one of these gets its type in the same scope. After acceptance every type is finite (contains itself nowhere as a part), every structure is complete, and every declared name denotes exactly the type its declaration describes, anonymous parts being new types.", "quantifier": "all sequences of declarations, all nestings of types, all well-formed sets of visible names", "why_tests_cant": "self-containing types can be hidden at any depth and behind any nesting of records, arrays, pointers and procedure types, and forward pointers depend on what follows in the scope", "anchors": ["src/compiler/OPP.Mod TypeDecl, Type, RecordType, ArrayType, PointerType, FormalParameters, Block"]}
{"id": "C81", "title": "Type-bound procedures are redefined safely", "statement": "If the compiler accepts the type-bound procedures of a module, then in every chain of record extensions (including imported base types) all procedures of one name have the same kind of receiver, the same parameters passed in the same way, and the same result type. So the procedure executed for the dynamic type of a receiver always has the parameters against which the compiler checked the call. Every procedure has exactly one body, forward declarations included, and in a chain of extensions a name denotes one field, or one procedure and its redefinitions. Conversely a sequence of declarations that follows the rules of the language is accepted.", "quantifier": "all tables of types, all consistent sets of imported members, all sequences of (forward) declarations of type-bound procedures, all static and dynamic types of calls", "why_tests_cant": "a violation needs a particular order of forward declarations, redefinitions on several levels and imported types; the consequence is a call of a C function through a pointer of another type", "anchors": ["src/compiler/OPP.Mod: Receiver, Extends, ProcedureDeclaration, TProcDecl, GetParams", "src/compiler/OPV.Mod: GetTProcNum, Traverse", "src/compiler/OPT.Mod: FindField", "src/compiler/OPB.Mod: CheckParameters"]}
{"id": "C82", "title": "Operators accept exactly the operand types of the language and have the documented result type", "statement": "The compiler accepts an expression with a dyadic operator exactly if the language report allows the operator for the types of the operands and it does not divide by a constant 0. The type of the accepted expression is the one of the report: the smallest type that includes both operand types for arithmetic and sets, REAL for the quotient of integers, BOOLEAN for comparisons and logic, and both operands are converted to that type before the operation. Characters, strings, pointers to related records, procedures and NIL are compared as the report says. The same holds for constant expressions, monadic operators, ABS, CAP, ODD, IN and set constructors.", "quantifier": "all type tables, all extension chains, all pairs of operand types and classes, all operators", "why_tests_cant": "the table of operators times pairs of types is unbounded because of record extension and user-defined types; a wrong entry shows only for a particular pair, and then as a wrong C conversion", "anchors": ["src/compiler/OPB.Mod: Op, ConstOp, MOp, CheckPtr, Convert, CharToString, In, SetRange, SetElem"]}
{"id": "C83", "title": "Designators are accepted by the rules of the language and denote existing variables of their type", "statement": "The compiler accepts an index, a field name, an arrow or a type guard after a designator exactly if the language allows it there, and gives the result the type the language says. An accepted designator, evaluated with the generated checks, either stops the program or denotes storage that exists and may be used with the static type of the designator, whatever the pointers, array lengths and dynamic types are. The type descriptor passed with a record is the one of its dynamic type, type tests answer whether the dynamic type is an extension, and a designator is read-only exactly if the variable or a field on the way after the last pointer is.", "quantifier": "all type tables, all selector sequences of any length, all typed memories", "why_tests_cant": "the sequences of selectors and the shapes of memory are unbounded; a missing check shows only when a particular pointer, length or dynamic type occurs at run time", "anchors": ["src/compiler/OPB.Mod: DeRef, Index, Field, TypTest", "src/compiler/OPP.Mod: selector", "src/compiler/OPT.Mod: FindField", "src/compiler/OPV.Mod: design, Index, TypeOf, expr (IS)", "src/runtime/SYSTEM.h: __X, __XF, __GUARDP, __GUARDR, __IS"]}
{"id": "C84", "title": "Calls of predeclared procedures are accepted by the table of the language, with its types and constants", "statement": "The compiler accepts a call of a predeclared procedure or of a procedure of SYSTEM exactly if number, kind, type and constant value of the arguments are as the language report and the documentation of SYSTEM say. The result has the type of the table, and if it is a constant, the value of the mathematical function, and it fits its type. What a call changes is a variable that may be written. NEW of an open array takes exactly one length for each open dimension. LEN of a part of an array asks for the right dimension of the whole array. The check always ends.", "quantifier": "all type tables, all procedures, all argument lists of any length with any types and constants", "why_tests_cant": "some thirty procedures times all combinations of types, constants and numbers of arguments; a missing test shows only for a particular combination", "anchors": ["src/compiler/OPB.Mod: StPar0, StPar1, StParN, StFct, NotVar, Convert, NewIntConst", "src/compiler/OPP.Mod: StandProcCall", "src/compiler/OPT.Mod: ShorterOrLongerType"]}
{"id": "C85", "title": "Dates and day numbers belong together", "statement": "The number of an Oberon date is the number of days since 1 January 1901, the number gives the date back, adding days goes that many days forwards or backwards in the Gregorian calendar, days of the week follow each other, dates are made and taken apart faithfully, and adding months or years keeps the day or goes to the last day of the month. The modified Julian day number of an English date (Julian up to 2 September 1752, Gregorian from 14 September 1752) counts the days, is 0 on 17 November 1858, and gives the date back.", "quantifier": "all valid dates (day numbers: 1901 to 28 February 2100; months and years: 1901 to 32767; English dates: the years 1 to 28000), all amounts added", "why_tests_cant": "leap years, centuries and the switch of calendars make every date a case of its own; an error of one day shows only around a few of them", "anchors": ["src/library/s3/ethDates.Mod: NumberOfDays, NumberOfDaysToDate, ToDate, ToYMD, DayOfWeek, DaysOfMonth, AddYear, AddMonth, AddDay", "src/library/ooc/oocJulianDay.Mod: DateToJD, DateToDays, JDToDate, DaysToDate, SetGregorianStart"]}
{"id": "C86", "title": "Times of day and time stamps are added and compared exactly", "statement": "An Oberon time is made and taken apart faithfully; adding hours, minutes or seconds is addition modulo 24 hours; adding seconds to a time and a date carries into the date, forwards and backwards. Time stamps and intervals are initialised, added, subtracted and compared as the number of milliseconds they stand for, the milliseconds always stay below one day, a difference added again gives the time back, and the system time is counted from 1 January 1970.", "quantifier": "all times of day, all dates from 1901 to 28 February 2100, all amounts, all time stamps and intervals whose days fit, all sequences of additions and subtractions", "why_tests_cant": "carries over minutes, hours, days and months in both directions and their combination; sequences of any length", "anchors": ["src/library/s3/ethDates.Mod: ToTime, ToHMS, AddHour, AddMinute, AddSecond, AddTime", "src/library/ooc/oocTime.Mod: InitTimeStamp, GetTime, TimeStamp.Add, Sub, Delta, Cmp, InitInterval, Interval.Add, Sub, Cmp"]}
{"id": "C87", "title": "Declarations in the generated C declare the type that was meant", "statement": "For every type, however arrays, pointers, open arrays and procedure types are nested in it, the text written for a variable, a field, a type or a parameter is a C declaration of that name, and C reads it, by its rules for declarators, as the type that belongs to the Oberon type: arrays as arrays, pointers as pointers, open arrays as a pointer to their elements followed by one length for each dimension, variable records as a pointer followed by the type tag, pointers to open arrays as pointers to a structure of lengths and elements, procedure variables as pointers to functions. The text has no other reading, so two declarations with the same text declare the same.", "quantifier": "all types of any depth, all parameter lists of any length, nested to any depth; all C texts (for the uniqueness of the reading)", "why_tests_cant": "types can be nested without limit, and the place of a star or parenthesis depends on the whole nesting; a misplaced one is often accepted by the C compiler with another meaning", "anchors": ["src/compiler/OPC.Mod: Stars, DeclareObj, DeclareBase, LenList, AnsiParamList, ProcHeader"]}
{"id": "C88", "title": "Types are defined in the generated C before they are used, and once", "statement": "When the compiler writes the type definitions of a module and reports no error, every type name used in the definition of a type, in the structure of a record without a name or in the head of a type-bound procedure has been defined before, only pointers to records name their target by its tag alone, no type is defined twice, and every type of the scope is defined in the end. Types that are part of themselves are reported. Generation ends, and types of which none is part of itself are accepted.", "quantifier": "all type graphs of any size: records with base types, fields and type-bound procedures, pointers, arrays, procedure types, with and without names, in any order of declaration", "why_tests_cant": "the order results from a recursive walk over a graph with cycles; whether it ends and what it has written on the way depends on the whole graph", "anchors": ["src/compiler/OPC.Mod: DefineType, DeclareTProcs, DefineTProcTypes, TypeDefs, DefAnonRecs, Undefined, GenHdr, GenBdy"]}
{"id": "C89", "title": "The string procedures of the ooc library do what their comments say", "statement": "Assign, Extract, Delete, Insert, Replace, Append and Concat leave in their variable exactly the string the comments describe, cut to the capacity of the variable, always terminated, and never touch anything outside it. The Can\u2026All predicates tell exactly whether the operation will be complete. Compare is lexical order, Equal is equality of strings, FindDiff gives the first difference, FindNext and FindPrev give the next and the previous occurrence and leave the position unchanged if there is none. Capitalize replaces small letters by capital ones.", "quantifier": "all terminated strings in arrays of any length up to MAX(INTEGER), all positions and counts that are not negative", "why_tests_cant": "off-by-one errors at the ends of arrays and strings show only for particular combinations of four lengths", "anchors": ["src/library/ooc/oocStrings.Mod: Length, Assign, Extract, Delete, Insert, Replace, Append, Concat, CanAssignAll \u2026 CanConcatAll, Compare, Equal, FindNext, FindPrev, FindDiff, Capitalize", "src/runtime/SYSTEM.h: __CAP"]}
{"id": "C90", "title": "Real numbers are written as numbers in exponential form close to them", "statement": "Out.Real and Out.LongReal write, for every finite number and every field width, one digit, a point, one to sixteen digits, the letter E or D, a signed exponent of two or three digits, preceded by a minus sign for negative numbers and by blanks up to the field width. The number written differs from the argument by no more than half a unit of the last digit computed and a small relative error; zero is written as zero; infinity and NaN are named. Nothing is written outside the buffer and no conversion is undefined.", "quantifier": "all IEEE double numbers (for Real those in the range of single numbers), all field widths from -32000 to 32767", "why_tests_cant": "2^64 numbers; the errors of up to a dozen floating-point operations add up differently for each of them", "anchors": ["src/runtime/Out.Mod: digit, prepend, Ten, Entier64, RealP, Real, LongReal"]}
{"id": "C91", "title": "A run of the compiler leaves the files of a module consistent", "statement": "Whatever has been compiled, in whatever order, and wherever a run was stopped: an object file in the directory was made from the C file and the header that are there, and these and the symbol file belong to one and the same source. A run touches no files but those of the modules named in it. A source with errors changes nothing. A changed interface is refused unless an option allows it, and then the symbol file stays as it was; after a successful translation the C file and the header are those of the source and clients find a symbol file that describes it.", "quantifier": "all sources, options, directories, histories of commands and points at which a run is stopped, any comparison of symbol files and any C compiler", "why_tests_cant": "histories of commands and points of interruption are unbounded", "anchors": ["src/compiler/Compiler.Mod: Module, Translate", "src/compiler/OPT.Mod: FPrintErr, Import, Export", "src/compiler/OPM.Mod: OldSym, RegisterNewSym, DeleteSym, DeleteObj, OpenFiles, CloseFiles", "src/compiler/extTools.Mod: Assemble"]}
{"id": "C92", "title": "The collector is told every pointer in the variables of the modules, and nothing else", "statement": "For every module, the procedure the compiler generates for the collector passes it the contents of each traced pointer that occurs in the module's global variables, directly, in records, in base records or in arrays of any number of dimensions: each of them once, and no other value. It reads nothing outside these pointers and the type descriptors, and ends. Over all modules of a program every such pointer is passed once; a module without pointers is registered without such a procedure.", "quantifier": "all lists of global variables of all declarable types whose layout fits, both address sizes and alignments, all contents of memory", "why_tests_cant": "types nest without bound and a missed pointer shows only as memory reused much later", "anchors": ["src/compiler/OPC.Mod: GenEnumPtrs, EnterBody, NofPtrs, PutPtrOffsets, TDescDecl", "src/runtime/SYSTEM.c: SYSTEM_ENUMP, SYSTEM_ENUMR", "src/runtime/Heap.Mod: GC (enumeration of modules)"]}
{"id": "C93", "title": "A text survives being stored and loaded", "statement": "A text written with Texts.Store or Texts.Close and read again with Texts.Load or Texts.Open has the same length and shows the same characters and elements with the same fonts, colours and vertical offsets; the rider ends behind the text whatever follows it. Loading any file ends.", "quantifier": "all texts (any runs of pieces and elements), all positions in files, all bytes following the text, all files for termination", "why_tests_cant": "The header depends on every combination of fonts, kinds of elements, merged pieces and lengths; particular header lengths and the number of fonts break it, and the runs are unboundedly many.", "anchors": ["src/runtime/Texts.Mod: Store, StoreElem, Load0, LoadElem, Load, Open, Close, HandleAlien", "src/runtime/Files.Mod: ReadLInt, WriteLInt, ReadString, WriteString"]}
{"id": "C94", "title": "A program is linked from exactly the modules it needs, and failures of the C compiler are reported", "statement": "Compiling a main program calls the C compiler with the object files of exactly the modules in the current directory that the program imports directly or indirectly, each once, with the include directory, library directory and library of the chosen data model. The compiler succeeds only if every command it starts succeeds, and otherwise ends with the exit status of that command.", "quantifier": "all import graphs, all orders and histories of compilations, all module names and directories, all ways a command can end", "why_tests_cant": "The set of object files depends on the whole import graph and on which symbol files were rewritten in the past; directories and numbers of modules are unbounded, and commands can end in hundreds of ways.", "anchors": ["src/compiler/OPT.Mod: Init, InLinks, Import, Export, OutLinks", "src/compiler/Compiler.Mod: Module, FindLocalObjectFiles, Translate", "src/compiler/extTools.Mod: execute, InitialiseCompilerCommand, Assemble, LinkMain", "src/tools/make/configure.c: writeConfigurationMod"]}
{"id": "C95", "title": "Buffers of the zlib modules deliver bytes in order", "statement": "Whatever is written to an output buffer comes out in the same order when it is drained, whatever is put into an input buffer is read in the same order, and Reread delivers consumed bytes again. Requests for more bytes than there are, or more room than there is, stop the program. No operation touches memory outside the buffer or copies overlapping memory.", "quantifier": "all buffer sizes and contents, all sequences of operations, all offsets and lengths", "why_tests_cant": "Whether bytes are lost or memory is overrun depends on the interleaving of filling, reading, going back and draining, and on the fill level at each call; the sequences are unbounded.", "anchors": ["src/library/s3/ethZlibBuffers.Mod: Init, Read, ReadBytes, Write, WriteBytes, Rewind, Reread, Rewrite, Fill, Drain", "src/runtime/SYSTEM.h: __MOVE"]}
{"id": "C96", "title": "Constant strings are unique, permanent and comparable", "statement": "Creating constant strings in a domain gives the same object exactly for equal byte sequences. An object keeps the bytes it was created with, however many strings are created later and wherever they lie in the internal buffers: writing it to a stream, extracting it into an array (cut to fit and terminated) and reading it with any mixture of single bytes, blocks and seeks give these bytes. Comparing two strings gives their lexicographic order.", "quantifier": "all sequences of created strings of all lengths, all pairs of strings of one or two domains, all array lengths and stream capacities, all sequences of reading and seeking", "why_tests_cant": "Strings share chained buffers of 512 bytes and hash chains; an error shows only for certain combinations of lengths, positions and hash collisions among unboundedly many strings.", "anchors": ["src/library/ulm/ulmConstStrings.Mod: HashVal, Equal, Allocate, NewBuffer, CopyString, InternalCreateD, CreateDomain, Open, Compare, Write, Extract, ReadByte, ReadBuf, Seek"]}
{"id": "C97", "title": "File names are taken apart and put together again", "statement": "Splitting a file name yields the path up to and including the last slash and the file name after it; splitting off the extension yields the characters after the last period of the last part and the name before that period; both whenever the arrays have room for the result. Building a name joins path, name and extension with exactly one slash and one period where needed, cut to the array. Building from the parts gives back the name. A leading tilde stands for the home directory of the current or the named user.", "quantifier": "all file names of all lengths with any number of slashes and periods, all array lengths, all user files", "why_tests_cant": "The result depends on the positions of all slashes and periods and on the length of every array involved.", "anchors": ["src/library/ooc/oocFilenames.Mod: LocateCharLast, SplitRChar, GetPath, GetExt, GetFile, AddExt, AddPath, BuildFilename, ExpandPath", "src/library/ooc/oocRts.Mod: GetUserHome", "src/library/ooc/oocStrings2.Mod: AppendChar, PosChar"]}
{"id": "C98", "title": "Comparison with a pattern", "statement": "Comparing a string with a pattern tells whether the string can be obtained by replacing every star of the pattern by some characters and every question mark by one character. The comparison reads nothing behind the end of the string.", "quantifier": "all patterns with any number of stars and question marks, all strings, all array lengths", "why_tests_cant": "Stars make the comparison try all positions recursively; a wrong result shows only for particular combinations of stars, question marks and the length of the string.", "anchors": ["src/library/ooc/oocStrings2.Mod: Match"]}
{"id": "C99", "title": "The random numbers are those of the Mersenne Twister", "statement": "After the 624 words of state are set, successive calls give, without end, the numbers of the published generator MT19937 in their order. Setting a single seed, or calling without one, gives a defined sequence. The number with a range lies in the range, and the real number lies between 0 and 1.", "quantifier": "all states of 624 words, all numbers of calls, all seeds and ranges", "why_tests_cant": "The array is renewed in place every 624 calls by three loops that read old and new elements; an error at one boundary shows only after many calls and only as a wrong number among random numbers.", "anchors": ["src/library/misc/MersenneTwister.Mod: SetSeed, SetSeeds, Int, IntRange, Real", "src/runtime/SYSTEM.h: __LSH"]}
{"id": "C100", "title": "Dynamic texts keep their bytes", "statement": "A dynamic text opened as a stream behaves like a sequence of bytes with a position: single bytes and blocks are written over or behind the existing bytes, reading gives what was written last at each place and stops at the end, seeking is possible within the text, truncating keeps the bytes before the new end, and closing empties the text.", "quantifier": "all sequences of operations of any length with all block sizes, offsets and positions", "why_tests_cant": "The bytes lie in a chain of buffers of 512 bytes that grows on demand; the buffers, their number and the length must agree after every history.", "anchors": ["src/library/ulm/ulmTexts.Mod: Open, Access, BufRead, BufWrite, Read, Write, Seek, Tell, Close, Trunc"]}
{"id": "C101", "title": "Shared resources know who uses them and pass news on to everything that depends on them", "statement": "After any sequence of Attach, Detach, Notify and DependsOn calls of ulmResources: every call returns; the use count of a resource is the number of keys given out and not given back; Attach gives NIL exactly for terminated and unreferenced resources; giving back a key counts once and makes the resource unreferenced exactly if it was the last one; a termination, stop or resumption reaches all direct and indirect dependants of the resource and nothing else; terminated resources stay terminated and are never reported as stopped; a dependant gives its own key back when it becomes unreferenced.", "quantifier": "all sequences of calls, all resources, all dependency graphs (proved for graphs without cycles)", "why_tests_cant": "The histories and dependency graphs are unbounded; the procedures call each other recursively through linked lists they change at the same time.", "anchors": ["src/library/ulm/ulmResources.Mod: Attach, Detach, Notify, DependsOn, Alive, Stopped, Terminated, InternalNotify, Unlink"]}
{"id": "C102", "title": "Data attached to objects is found again, also through forwards", "statement": "After any sequence of Add, Remove and Forward calls of ulmDisciplines and ulmIndirectDisciplines, an object has under an identifier exactly what was added last and not removed since; adding an identifier an object already has replaces the old discipline. Add through forwards goes to the last object of the chain, Seek and Remove through forwards use the first object of the chain that has the identifier, and every call returns. What is added through an object is what Seek finds through it, what is removed is no longer found. Identifiers given by Unique are different.", "quantifier": "all sequences of calls, all objects, identifiers and chains of forwards of any length", "why_tests_cant": "The lists of an object and the chains of forwards have no bound, and every history of calls must lead to the same answers as a map.", "anchors": ["src/library/ulm/ulmDisciplines.Mod: Unique, Remove, Add, Seek", "src/library/ulm/ulmIndirectDisciplines.Mod: Forward, Add, Remove, Seek"]}
{"id": "C103", "title": "Times are set, added, subtracted and compared as what they mean", "statement": "A time of the reference scale made from an epoch, seconds and microseconds stands for that number of microseconds and is kept with seconds and microseconds in their ranges, whatever values were given; sums and differences of times are exact and in their ranges; a sum minus one part is the other part; comparing two times compares the moments they stand for.", "quantifier": "all 32-bit values of epoch, second and microsecond, all pairs of times", "why_tests_cant": "The carries between microseconds, seconds and epochs depend on the values of three 32-bit fields; tests try only a few of them.", "anchors": ["src/library/ulm/ulmTimes.Mod: CreateAndSet, SetValue, GetValue, Normalize, Op (Add, Sub), Compare"]}
{"id": "C104", "title": "Values exchanged over a stream arrive as they were sent", "statement": "Bytes, booleans, integers, real numbers, sets, strings and constant strings written to a stream by the network input and output module are read again as the same values, in the same order and without consuming anything more; integers travel with the most significant byte first and sets with their elements in order; a string that does not fit is cut and still consumed; too few bytes and bad lengths are reported; a stream with an attached interface uses the procedures of that interface.", "quantifier": "all lists of values of all kinds, all contents of the stream before and after, all attached interfaces", "why_tests_cant": "Byte and bit orders must be inverse for every value and values must not run into each other for every sequence of kinds.", "anchors": ["src/library/ulm/ulmNetIO.Mod: AttachInterface, ReadByte, WriteByte, ReadLongInt, WriteLongInt, ReadSet, WriteSet, ReadString, WriteString, ReadBoolean, WriteBoolean, ReadShortInt, WriteShortInt, ReadLongReal, WriteLongReal, ReadConstString, WriteConstString (Seek, Swap, BitSwap)"]}
{"id": "C105", "title": "Strings are judged and converted to integers by their value (ooc2)", "statement": "The format of a string for conversion to an integer is all right exactly for white space, an optional sign and at least one digit with a value in the range of 32 bits, whatever the number of leading zeros and blanks; out of range for other numerals; empty for white space only; wrong for everything else. The value of a string that is all right is the number it denotes, without overflow on the way. The length given for an integer is that of its shortest numeral.", "quantifier": "all strings (any white space, sign, digits, leading zeros and contents behind the terminator)", "why_tests_cant": "The decision depends on the position of the first digit other than zero and on comparing ten digits with the limits, for unboundedly many strings.", "anchors": ["src/library/ooc2/ooc2IntConv.Mod: WState, SState, ScanInt, FormatInt (LessOrEqual), ValueInt, LengthInt", "src/library/ooc2/ooc2CharClass.Mod: IsNumeric, IsWhiteSpace"]}
{"id": "C106", "title": "Oakwood strings do what they promise and cut their results to the array", "statement": "Inserting, appending, deleting, replacing and extracting yield the string that is promised, cut to the size of the array and always terminated; the arrays keep their length and nothing outside them is touched. Capitalising replaces lower case letters by upper case letters and leaves all other characters alone. Searching finds the first occurrence of a pattern at or after a position, or reports that there is none.", "quantifier": "all strings, positions in them, numbers of characters and array sizes below 2^15", "why_tests_cant": "The results depend on how positions, lengths and array sizes lie to each other, and the moves overlap; only some of the unboundedly many combinations are tried.", "anchors": ["src/library/ooc/oocOakStrings.Mod: Length, Insert, Append, Delete, Replace, Extract, Pos, Cap"]}
{"id": "C107", "title": "Streams are added modulo 2, and adding the key again deciphers", "statement": "Adding two bytes modulo 2 adds their bits. Adding two streams over a number of bytes writes the sums of exactly these bytes, reads nothing more, and succeeds exactly if both streams have them; without a number all of the first stream is treated, and success means that. Adding the same key to the result gives the text back.", "quantifier": "all bytes, all contents and lengths of the streams, all numbers of bytes of 32 bits", "why_tests_cant": "The bytes pass through signed numbers and sets, and the result depends on which stream ends first, for unboundedly many streams.", "anchors": ["src/library/ulm/ulmCipherOps.Mod: XorByte, XorStream"]}
