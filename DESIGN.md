# A Rocq model of vishaps/voc

voc compiles Oberon-2 to C.  The repository holds the compiler (`src/compiler/OP*.Mod`),
the run-time system (`src/runtime/SYSTEM.h`, `SYSTEM.c`, `Heap.Mod`, `Files.Mod`, `Out.Mod`, ...)
and libraries.  The model is a set of executable Gallina functions, one per Oberon or C routine,
written from the text of the source.  Nothing is built or run from /repo.

## Layout of the development

All files are in `rocq/theories`, logical name `Verif`.

* `Base.v` - outcomes, machine integers, tactics.
* `<Area>Model.v` - the model: only definitions, each with a comment citing file and lines.
* `<Area>Spec.v` - (where useful) the small independent specification a theorem refers to.
* `<Area>Proofs.v` - lemmas.
* `<Area>Props.v` - the property theorems (`Cnn_...`), each proved by `exact` of a lemma, its
  `Print Assumptions`, and a non-vacuity `Example` beside it.

Naming: `Cnn_xxx` is a theorem for property Cnn; `Cnn_xxx_partial` proves part of it;
`Cnn_xxx_refuted` is a proof that the full English claim is false of the code (a finding).

## Conventions

* Integer values are `Z`; machine wrap-around is explicit (`wrap8/16/32/64`), and every
  operation of the C code that would be undefined (signed overflow, shift by the width, division
  by zero) is a distinct outcome `UB`.  A run-time HALT is the outcome `Trap code`.
* Lengths, list indices and fuel are `nat`.  A function with fuel returns `Fuel` when it
  runs out and the theorems exclude that outcome.
* Characters are `Z` in 0..255; an `ARRAY OF CHAR` is a `list Z` whose length is LEN.
* External calls (operating system reads/writes, memory allocation) are explicit parameters or
  part of the modelled state; each is listed under "Trusted base".

## Plan per property

| Id | What is modelled | How it is proved |
|---|---|---|
| C01 | `SYSTEM_DIV`, `SYSTEM_MOD`, `__DIV`, `__MOD` with checked 64-bit steps | equality with floor division/modulus by case analysis and `nia`; the operand pairs with UB are characterised exactly |
| C02 | `__ABS`, `SYSTEM_ABS32/64` with their declared result types | direct; a refutation for the 64-bit routine if the result type truncates |
| C03 | `__ASH`, `__LSH`, `__ROT` on `Z` bit patterns | `Z.testbit` extensionality |
| C04 | set constructors, membership, operators | `Z.testbit` characterisation |
| C05 | `__X`, `__R`, `__SHORT`, `__CHR` | case analysis |
| C06 | `__str_cmp` with fuel-free recursion on lists | refinement to lexicographic comparison, order laws |
| C07 | `__COPY` as an indexed loop on arrays | loop invariant, index safety |
| C08 | base-type tables, `__INITYP`, `__IS` | induction over the list of declared types: table entry = ancestor at level |
| C09 | method tables, `SYSTEM_INHERIT`, `__INITBP`, numbering | induction on the hierarchy |
| C10 | allocator: chunks, blocks, free lists | invariant by induction over histories |
| C11 | Deutsch-Schorr-Waite marking on a map heap | invariant + refinement to reachability, graph restored |
| C12 | `Scan` over a list of blocks | induction on the block list |
| C13 | `MarkCandidates` over sorted candidates and blocks | induction, merge argument |
| C14 | `Sift`, `HeapSort` on arrays | heap invariant, permutation |
| C15 | finalizer list, `CheckFin`, `Finalize`, `FINALL` | trace invariant by induction over histories |
| C16 | module list, `REGMOD`, `INCREF`, `FreeModule`, `ThisMod` | invariant by induction over histories |
| C17 | `WriteNum`, `ReadNum` | round trip by strong induction |
| C18 | fixed-size codecs | round trip |
| C19 | string/line codecs | induction |
| C20 | riders and four-buffer cache over a disk byte array | refinement to a flat byte array with an abstraction function, over all histories |
| C21 | `New/Register/Rename/Close` over an abstract directory | invariant over histories and prefixes |
| C22 | `Canonify`, `Trim`, ... | induction on strings, component-wise spec |
| C23, C24 | `Out.Int`, `Out.Hex` | numeral denotes value; minimality; width |
| C25 | 128-byte buffer | invariant: emitted ++ buffered = concatenation |
| C26, C27 | `In` readers over an input list | round trip with C23; partition invariant |
| C28-C31 | `Strings` procedures with index traps | refinement to list functions; glob relation |
| C32 | the runs as a doubly linked heap structure with the lookup cache, files, texts, buffers, writers, readers as one machine | simulation invariant over all histories: each ring is owned by one text or buffer, contents equal the sequences; the rules a client must respect are shown necessary by traces that break |
| C33, C34 | digit loops, packing | round trip |
| C35-C38 | scanner procedures on a character list | refinement to small specs |
| C39-C41 | `ConstOp`, `Op` rewriting, `IntSize` | exactness or error; value equality |
| C42, C43 | `TypSize`, `FieldList`, `FillGap`, `PutPtrOffsets` on a type tree | induction on types; C ABI layout as spec |
| C44 | scope trees | refinement to association lists, induction on histories |
| C45 | rotating xor hash | bijectivity of each step |
| C46 | label table insertion, lookup | sortedness/disjointness invariant |
| C47 | desugared loop | induction; wrap-around at range end analysed |
| C48-C50 | emitted C text; C lexer/parser spec | decode(emit x) = x |
| C51 | `OptIf` on IF chains | simulation |
| C52 | keyword table and hash | finite sweep for the table + general argument |
| C53 | option toggles | algebra of symmetric difference |
| C54 | line search | induction |
| C55 | `CheckAssign` on tables of structures compared by identity | values of a type as an inductive relation; what is stored is a value of the destination; termination by rank |
| C56 | `GetTempName` on character arrays | exact value of the name, unique decoding of directory, counter and process number |
| C57 | `ScanPath`, `HasDir`, the loop of `Old` with an oracle for "can be opened" | successive calls enumerate the fields of the path; the loop is `find` over them |
| C58 | `SYSTEM_NEWARR`, `Heap.NEWBLK` on the heap of C10 | from a valid heap: lengths stored, elements cleared, pointer offsets of the block exactly those of the elements; other storage kept; counterexamples for fixed arrays and several open dimensions of pointers |
| C59 | programs over NEW, load, store, copy, compare and collections, run on the modelled heap | simulation by an abstract store of immortal objects: same observations whatever the placement and the moments of collection |
| C60 | subscript text of open arrays (Horner's scheme) within the C50 model | evaluation of the tree C reads; arithmetic of row-major positions |
| C61 | `Param`, `DynArrParCheck`, `CheckParameters` on the same type tables as C55 | value-set inclusion in both directions, induction on open-array depth |
| C62 | symbol files: the whole of Export and Import as byte lists, type graphs on one side, the importer's type table on the other | simulation between the writer's and the reader's numbering, by induction on the depth of the walk; specification by a correspondence of types (`SymSpec.v`); sequences of imports by an invariant of the client |
| C63 | `NofPtrs`, `PutPtrOffsets` on both sides of a symbol file | the importer's table corresponds to the exporter's graph (C62); induction on nesting; two counterexamples for hidden fields |
| C64 | `FormatInt`, `ValueInt`, `LengthInt`, `StrToInt`, `IntToStr` with the width of LONGINT as a parameter | scanner states against a grammar of numbers; digits by induction; counterexamples for strEmpty, strOutOfRange and 64-bit IntToStr |
| C65 | NestSpec.v (language, lexical-scoping meaning), NestModel.v (generated C: scope structs, lnk chains, leaf flags, value-array copies) | simulation by induction on steps: scope pointers of the static chain always point to live structs whose fields denote the source variables; storage typing invariant |
| C66 | FlowSpec (structured statements with Norm/Exit/Ret outcomes over an arbitrary state), FlowModel (C statements with break, goto and labels, fall-through switch; generator with exit level, label and counter) | mutual induction over statements: label invariants (fresh, unique, targets present) and simulation of outcomes; switch entry by case labels |
| C67 | SynSpec (grammar of the report as an inductive relation between symbols and trees), SynModel (the recursive-descent procedures with their error recovery, over a list of symbols) | termination by a measure of 20 x remaining symbols + rank of the procedure; completeness by induction on derivations, soundness by induction on calls |
| C68 | XferModel (C statements written for an assignment, arguments and prologue of a call, run on a memory of byte blocks), XferSpec (bytes copied, shape of arrays, lengths to be passed) | case analysis on what AsgModel accepts (C55, C61); induction on array nests, index chains and call chains |
| C69 | UtfModel (the procedures with their loops, index checks and word sizes), UtfSpec (UTF-8 as in RFC 2279) | case analysis on the six lengths with linear arithmetic, induction on strings |
| C70 | SetsModel (the loops with their index variables and checks; VAR parameters as names of arrays), SetsSpec (membership: bit x MOD b of word x DIV b) | invariants of the loops, bit level lemmas of C04 |
| C71 | SetExprModel (nodes built by OPB; C evaluation with int, unsigned int and the 64-bit types, usual arithmetic conversions), SetExprSpec (membership function and number of elements of each expression) | induction over the expression with an invariant on the C type and the low bits of the value of each node |
| C72 | NumModel (nodes built by OPB; C evaluation with promotions, signed overflow undefined, the macros and routines of ArithModel), NumSpec (type, value and definedness of source expressions) | induction over the expression with an invariant that each node has the type of the expression and its C evaluation gives the value in a C type wide enough |
| C73 | OnceModel (generated C with the macros expanded, executed with a history of calls), OnceSpec (evaluation of each part once, left to right) | induction over expression, designator and argument list: the C execution refines the language's, history included |
| C74 | UnitModel (the parser with its error recovery over lists of symbols), UnitSpec (the grammar as derivations; expressions and statements of SynSpec) | measure of symbols left and rank of the procedure for termination; induction over the parser's calls for soundness; mutual induction over derivations with the sets of following symbols for completeness |
| C75 | InitModel (the statements the compiler writes for a module from the tree of its declarations, and their execution), InitSpec (imports, order, events) | in-order walk of the scope tree is the sorted list of the imports; the execution equals a depth-first log by induction on the fuel; the properties are invariants of that log; a halting body cuts it |
| C76 | LongIntModel (the loops over the array with indices, carries and conversions) | value of a digit sequence by positions; induction over the digits with the carry as a parameter; the leading zero absorbs the last carry |
| C77 | CheckSumModel (loops over the array, LONGINT of 32 bits, sets as unsigned numbers) | specification as division of polynomials over two elements; the register after each bit is the remainder so far; linearity gives the table; injectivity of the zero step gives detection |
| C78 | Md5Model (the 64 steps, the buffer with its moves, padding and length, with a parameter for the meaning of overflowing additions) | specification with constants computed from the series of the sine; simulation of signed by unsigned words; invariant of the buffer over all histories of writes |
| C79 | RandModel (integer steps with overflow checks; real results with the SpecFloat operations of the standard library) | Schrage's decomposition; order of 16807 modulo the prime by the factors of 2^31-2, computed by fast powers; pigeonhole for reaching every number |
| C80 | DeclModel (structures as a growing table with in-place updates of VAR parameters, the list of waiting pointers, all errors) | rules and meaning as a separate specification on syntax trees; induction over nested types with a frame condition on the table and finiteness relative to the type being declared; invariant over declaration histories for waiting pointers |
| C81 | TprocModel.v: Receiver, Extends, FindField, TProcDecl with the completion of forward declarations, and the numbering pass with errors 119 and 129, over the type table of AsgModel; TprocSpec.v: agreement, consistency of chains, nearest procedure, the rules of the language | Invariant over the declarations: a procedure marked as redefinition agrees with a procedure of a proper base type; the final check 119 then gives agreement along the whole chain by induction on the depth. Completeness by a second invariant. |
| C82 | OperModel.v: Op, ConstOp without the computation of values, MOp, CheckPtr, In, SetRange and SetElem over the type table of AsgModel; OperSpec.v: the table of operators of the report as inductive relations | Case analysis of the matching of types, with an inductive summary of its outcomes; the walk over extensions by induction; termination from finite extension chains. |
| C83 | DesigModel.v: DeRef, Index, Field, TypTest and the selector loop over the type table of AsgModel, and the evaluation of designators in a memory of objects, paths and pointers; DesigSpec.v: the rules for designators and the typing of memory | The rules by case analysis and induction over the base types; the meaning by induction over the accepted selectors with an invariant that relates static types, locations and type descriptors. |
| C84 | StdModel.v: the four procedures over the type table of AsgModel and the constants of LitModel, with the loop over the arguments; StdSpec.v: the table of the report as a relation | One exactness lemma for each procedure and number of arguments, induction over the lengths for NEW and over the dimensions for LEN; the properties follow from the relation. |
| C85 | CalModel.v: the procedures with 16-bit INTEGER; the LONGREAL arithmetic of oocJulianDay as exact arithmetic; CalSpec.v: leap years by divisibility, lengths of months and the next day as relations | Closed form for the day number, shown to grow by one at each step and to be inverted by the table; the rest by induction over days and by case analysis on months. |
| C86 | CalModel.v and ClkModel.v: the procedures with 16-bit INTEGER and undefined overflow of LONGINT; ClkSpec.v: seconds since midnight and milliseconds | Linear arithmetic with division; AddTime rests on the theorem on AddDay (C85); histories by induction. |
| C87 | CdclModel.v: the procedures, with the text as a list of tokens; CdclSpec.v: the grammar and meaning of C declarators (C11 6.7.6) as relations on text with matched brackets, and the C type that belongs to an Oberon type | Mutual induction over types and parameter lists, with the declarator around the name generalised; uniqueness by injectivity of bracket matching and mutual induction over the grammar. |
| C88 | TdefModel.v: the walk with the marks of the types, the errors and the items written; TdefSpec.v: the parts of a type, what is known after a list of items, order and cycles | Invariant of the state by induction on the recursion; well-foundedness of containment from the order of the items; termination by a measure of marks and ranks. |
| C89 | OstrModel.v: each procedure with its loops over checked arrays; OstrSpec.v: the operations on character sequences | Invariants of the loops give the result element by element; the sequences of the specification are compared element by element; the searches by induction with the lexicographic measure of the two positions. |
| C90 | OrealModel.v: the procedures with IEEE double arithmetic (Flocq) and the buffer of 30 characters; OrealSpec.v: texts in exponential form and what they denote | Relative errors are carried through every multiplication and division; the estimate 77/256 of log10 2 is checked against powers for all exponents; the digits by induction. The theorems use the axioms of the standard library for real numbers. |
| C91 | CrunModel.v: the effects of a run on the four files of each module, in order; the passes are represented by their results; CrunSpec.v: consistent files, histories of commands, the symbol file found by clients | An invariant of the directory that holds after every single effect; frames for the files a pass does not touch; the flags of FPrintErr by induction over the differences. |
| C92 | EnumModel.v: the generated statements and the run-time procedures on memory, with the types and tables of LayModel.v; EnumSpec.v: the places of pointers in a type as an inductive relation | The tables are those of C43; nested arrays are flattened by induction; the loops of the run-time procedures by induction over their counters. |
| C93 | TfileModel.v: Store, StoreElem, Load0 and LoadElem over the bytes of a file, with the header of runs, fonts and element kinds; TfileSpec.v: what a text shows, character by character | The header is read back run by run, by induction over the pieces, with an invariant relating the font and kind tables of writer and reader; loading ends because every step consumes bytes or runs |
| C94 | LinkModel.v: the construction of the C compiler commands, the collection of imported modules and the treatment of exit statuses; LinkSpec.v: how a shell cuts a command into words, which modules a program needs, how processes end | The collected modules are shown to be the reachable ones by an invariant over histories of compilations; the command text is cut into words by the separate description of the shell |
| C95 | ZbufModel.v: the ten operations on a buffer record and its memory, with accesses outside the memory and overlapping memcpy as undefined behaviour | an input buffer is consumed bytes followed by pending bytes, an output buffer is written bytes; each operation preserves the view, and an induction over sequences of writing and draining shows that bytes taken out followed by bytes still inside are the bytes written |
| C96 | CstrModel.v: domains with chained buffers and hash chains, creation, comparison, output, extraction and readers | the chain of buffers is one sequence of bytes; allocation hands out the next free stretch and copying replaces it, so an invariant (every object denotes its bytes below the free mark, no two objects denote the same bytes, every object is in the chain of its hash value) holds after any sequence of creations |
| C97 | FnameModel.v: the procedures of oocFilenames and GetUserHome on the models of oocStrings and COPY | the last occurrence of the separator splits the name uniquely; the theorems about Delete, Insert and Append give the strings of the results; counterexamples by computation |
| C98 | GlobModel.v: Match with the recursion for stars | induction over the remaining pattern, with an inductive definition of what a pattern stands for |
| C99 | MtwModel.v: the state array, seeding, renewal in place, tempering, IntRange and Real | invariant over the renewal (the first kk elements are 624 places further in the sequence than the others), set operations proved equal to arithmetic on words, induction over the calls |
| C100 | UtxtModel.v: the interface procedures on the chain of buffers | refinement: the chain holds the bytes of an abstract text below its length, and the number of buffers is the counter; induction over the operations |
| C101 | ResrcModel.v: disciplines as a function from resources to records, keys as a list with their field valid, Unlink/Detach and InternalNotify with fuel for the depth; events and handlers left out. | An invariant with a set of resources that are being unlinked and a rank that goes down along dependencies (ResrcProofs.v); Detach and InternalNotify by induction on the depth. Cycles, DependsOn of a terminated and of an unreferenced dependant are refuted. |
| C102 | IndirModel.v: the list of each object, the procedures of both modules with fuel for the length of a chain; NIL objects and disciplines left out. | Refinement of a map from objects and identifiers (IndirSpec.v) by induction on the history; chains by induction on the relation that follows them. Shadowed identifiers and circles are refuted. |
| C103 | UtimeModel.v: Normalize, Add, Sub, Compare with 32-bit arithmetic whose overflow is undefined; other scales, units and the storing of times left out. | Case analysis of all carries against the number of microseconds (UtimeSpec.v), linear arithmetic. Two branches of Normalize and one boundary of Add are refuted for all their inputs. |
| C104 | Seek with its value parameter, Swap, BitSwap and eight kinds of values over a stream of bytes, little-endian machine | Induction over the list of values; the byte reversal by the complete table of 256 bytes; the wire formats against a separate description |
| C105 | Ic2Model.v: the scanner states, the loop of FormatInt with its start index, the comparison of digits with accesses to the arrays, ValueInt with 32-bit arithmetic whose overflow is undefined | The loop is computed for every numeral by induction over white space and digits; the comparison of ten digits is the comparison of numbers by induction; acceptance is inverted by induction over the string |
| C106 | OakModel.v: the loops on arrays with checked indices; OakSpec.v: what an array shows | Induction over the strings with the array split at the current index; the overlapping moves of Insert and Delete by an invariant that splits the array into moved part, gap and rest |
| C107 | CiphModel.v: the byte operation through 32-bit sets, the loop with its counter whose overflow is undefined | Bit by bit for bytes; induction over the first stream with the counter general |

## Trusted base

* Coq 8.16.1's kernel (including its `vm_compute` reduction, used for concrete witnesses and finite sweeps).
* `Print Assumptions` of every property theorem is printed at build time. For every theorem of the properties other than C90 it says
  "Closed under the global context", that is, no axiom at all.
* The theorems of C90 speak about real numbers and depend on these axioms of the standard library, and no others:
  `ClassicalDedekindReals.sig_not_dec`, `ClassicalDedekindReals.sig_forall_dec`,
  `FunctionalExtensionality.functional_extensionality_dep` and `Classical_Prop.classic`.
* Library code in the statements: the standard library (lists, integers, strings, `SpecFloat`) and, in C90, Flocq's
  `BinarySingleNaN` as the meaning of IEEE double arithmetic. Flocq adds no axioms of its own.
* The faithfulness of the hand-written model to the source text; each definition cites its lines. No extraction from the
  source, and no testing of the model against the compiled program, has taken place.
* The meaning given to the generated C: signed overflow, shifts by the width or more, and accesses outside an object are
  undefined behaviour (the programs are compiled without `-fwrapv`); operands are evaluated from left to right except where C
  sequences them otherwise.

## What is modelled

By source file; the model files cite the lines. The second column gives the property and what of the file its model covers.

| File | Covered |
|---|---|
| src/compiler/Compiler.Mod | C91: Module, Translate; C94: Module, FindLocalObjectFiles, Translate |
| src/compiler/OPB.Mod | C04: SetRange, SetElem; C39: ConstOp, MOp, StPar0 (ABS), StPar1 (ASH); C40: Op, log; C41: SetIntType; C51: OptIf; C55: CheckAssign; C61: Param, DynArrParCheck, CheckParameters, CheckProc; C68: Assign; C71: EmptySet, SetSetType, SetElem, SetRange, MOp, ConstOp, Convert, Op, In, CheckAssign; C72: MOp, ConstOp, Convert, Op, StPar0, StPar1, CheckAssign; C81: CheckParameters; C82: Op, ConstOp, MOp, CheckPtr, Convert, CharToString, In, SetRange, SetElem; C83: DeRef, Index, Field, TypTest; C84: StPar0, StPar1, StParN, StFct, NotVar, Convert, NewIntConst |
| src/compiler/OPC.Mod | C08: InitTDesc; C43: FieldList, FillGap, PutPtrOffsets, NofPtrs; C48: IntLiteral; C49: StringLiteral, CharacterLiteral, UpperCase/Case; C52: Ident, PerfectHash, InitKeywords; C60: Len; C63: NofPtrs, PutPtrOffsets; C65: EnterProc, ExitProc, CompleteIdent, TypeOf, Len; C66: ExitProc; C68: Len, EnterProc; C71: Constant; C72: Constant, Increment; C75: InitImports, RegCmds, EnterBody, ExitBody; C87: Stars, DeclareObj, DeclareBase, LenList, AnsiParamList, ProcHeader; C88: DefineType, DeclareTProcs, DefineTProcTypes, TypeDefs, DefAnonRecs, Undefined, GenHdr, GenBdy; C92: GenEnumPtrs, EnterBody, NofPtrs, PutPtrOffsets, TDescDecl |
| src/compiler/OPM.Mod | C17: SymWInt, SymRInt; C41: SignedMaximum, SignedMinimum; C45: FingerprintBytes, FPrint, FPrintSet, FPrintReal; C48: WriteInt, WriteHex; C53: ScanOptions, InitOptions, OpenPar; C54: FindLine, ShowLine, LogErrMsg; C62: SymRInt, SymRSet, SymWInt, SymWSet; C91: OldSym, RegisterNewSym, DeleteSym, DeleteObj, OpenFiles, CloseFiles |
| src/compiler/OPP.Mod | C46: CaseLabelList, CasePart; C47: StatSeq (for); C55: Extends; C65: qualident (leaf flags); C67: qualident, CheckSym, selector, ActualParameters, StandProcCall, Element, Sets, Factor, Term, SimpleExpression, Expression, CaseLabelList, StatSeq; C74: Module, Block, ProcedureDeclaration, GetCode, GetParams, Body, TProcDecl, Receiver, TypeDecl, Type, RecordType, ArrayType, PointerType, FormalParameters, CheckMark, CheckSysFlag; C80: TypeDecl, Type, RecordType, ArrayType, PointerType, FormalParameters, Block; C81: Receiver, Extends, ProcedureDeclaration, TProcDecl, GetParams; C83: selector; C84: StandProcCall |
| src/compiler/OPS.Mod | C35: Number; C36: Get, Comment; C37: Get, Identifier; C38: Str |
| src/compiler/OPT.Mod | C41: IntSize, IntType, ShorterOrLongerType; C42: TypSize, Align, SizeAlignment, BaseAlignment; C43: TypSize; C44: Insert, Find, FindField, OpenScope, CloseScope; C45: FPrint*; C55: EqualType/SameType; C62: Export, OutStr, OutFlds, OutHdFld, OutSign, OutTProcs, OutConstant, OutObj, Import, InStruct, InTyp, InSign, InFld, InTProc, InMod, InLinks, InConstant, InObj, InsertImport, TypSize; C63: OutHdFld, OutFlds, InFld; C75: Import, Insert; C81: FindField; C83: FindField; C84: ShorterOrLongerType; C91: FPrintErr, Import, Export; C94: Init, InLinks, Import, Export, OutLinks |
| src/compiler/OPV.Mod | C04: expr, stat (incl/excl); C09: GetTProcNum, TraverseRecord; C46: CaseStat; C50: expr, Precedence, design; C52: Stamp; C58: NewArr; C60: design (Nindex), Index, Len; C65: Stamp/leaf analysis, design, ActualPar, stat Nreturn, procedure end; C66: stat, IfStat, CaseStat, ImplicitReturn; C68: Len, TypeOf, ActualPar, design (Neguard), stat (Nassign); C71: expr, SizeCast, Convert; C72: expr, SizeCast, Convert, SideEffects; C73: SideEffects, expr, design, Index, TypeOf, ActualPar, Len, SizeCast, Convert; C81: GetTProcNum, Traverse; C83: design, Index, TypeOf, expr (IS) |
| src/compiler/extTools.Mod | C91: Assemble; C94: execute, InitialiseCompilerCommand, Assemble, LinkMain |
| src/library/misc/MersenneTwister.Mod | C99: SetSeed, SetSeeds, Int, IntRange, Real |
| src/library/ooc/oocFilenames.Mod | C97: LocateCharLast, SplitRChar, GetPath, GetExt, GetFile, AddExt, AddPath, BuildFilename, ExpandPath |
| src/library/ooc/oocIntConv.Mod | C64: ScanInt, WState, SState, FormatInt, ValueInt, LengthInt |
| src/library/ooc/oocIntStr.Mod | C64: StrToInt, IntToStr, Reverse |
| src/library/ooc/oocJulianDay.Mod | C85: DateToJD, DateToDays, JDToDate, DaysToDate, SetGregorianStart |
| src/library/ooc/oocLongInts.Mod | C76: MinDigit, MultDigit, AddDigit, DivDigit, TenPower, BPower |
| src/library/ooc/oocOakStrings.Mod | C106: Length, Insert, Append, Delete, Replace, Extract, Pos, Cap |
| src/library/ooc/oocRandomNumbers.Mod | C79: PutSeed, NextRND, RND, Random |
| src/library/ooc/oocRts.Mod | C97: GetUserHome |
| src/library/ooc/oocStrings.Mod | C64: Length; C89: Length, Assign, Extract, Delete, Insert, Replace, Append, Concat, CanAssignAll … CanConcatAll, Compare, Equal, FindNext, FindPrev, FindDiff, Capitalize |
| src/library/ooc/oocStrings2.Mod | C97: AppendChar, PosChar; C98: Match |
| src/library/ooc/oocTime.Mod | C86: InitTimeStamp, GetTime, TimeStamp.Add, Sub, Delta, Cmp, InitInterval, Interval.Add, Sub, Cmp |
| src/library/ooc2/ooc2CharClass.Mod | C105: IsNumeric, IsWhiteSpace |
| src/library/ooc2/ooc2IntConv.Mod | C105: WState, SState, ScanInt, FormatInt (LessOrEqual), ValueInt, LengthInt |
| src/library/s3/ethDates.Mod | C85: NumberOfDays, NumberOfDaysToDate, ToDate, ToYMD, DayOfWeek, DaysOfMonth, AddYear, AddMonth, AddDay; C86: ToTime, ToHMS, AddHour, AddMinute, AddSecond, AddTime |
| src/library/s3/ethMD5.Mod | C78: New, Write, WriteBytes, Close, Transform, ByteReverse, F1-F4, STEP1-STEP4, ToString |
| src/library/s3/ethRandomNumbers.Mod | C79: Uniform, InitSeed |
| src/library/s3/ethSets.Mod | C70 |
| src/library/s3/ethUnicode.Mod | C69: UCStoUTF8, UCS2toUTF8, UCS4toUTF8, UTF8toUCS, UTF8toUCS2, UTF8toUCS4, UTF8toASCII, ASCIItoUTF8 |
| src/library/s3/ethZlib.Mod | C77: Adler32, InitCRCTable, CRC32 |
| src/library/s3/ethZlibBuffers.Mod | C95: Init, Read, ReadBytes, Write, WriteBytes, Rewind, Reread, Rewrite, Fill, Drain |
| src/library/ulm/ulmCipherOps.Mod | C107: XorByte, XorStream |
| src/library/ulm/ulmConstStrings.Mod | C96: HashVal, Equal, Allocate, NewBuffer, CopyString, InternalCreateD, CreateDomain, Open, Compare, Write, Extract, ReadByte, ReadBuf, Seek |
| src/library/ulm/ulmDisciplines.Mod | C102: Unique, Remove, Add, Seek |
| src/library/ulm/ulmIndirectDisciplines.Mod | C102: Forward, Add, Remove, Seek |
| src/library/ulm/ulmNetIO.Mod | C104 |
| src/library/ulm/ulmResources.Mod | C101: Attach, Detach, Notify, DependsOn, Alive, Stopped, Terminated, InternalNotify, Unlink |
| src/library/ulm/ulmSets.Mod | C70: InitSet .. Card |
| src/library/ulm/ulmTexts.Mod | C100: Open, Access, BufRead, BufWrite, Read, Write, Seek, Tell, Close, Trunc |
| src/library/ulm/ulmTimes.Mod | C103: CreateAndSet, SetValue, GetValue, Normalize, Op (Add, Sub), Compare |
| src/library/v4/Sets.Mod | C70: Clear .. Intersect |
| src/runtime/Files.Mod | C17: WriteNum, ReadNum; C18: ReadInt, WriteInt, ReadLInt, WriteLInt, ReadSet, WriteSet, ReadBool, WriteBool, FlipBytes; C19: ReadString, WriteString, ReadLine; C20: Set, Read, ReadBytes, Write, WriteBytes, Flush, Close, Length, Pos, Purge, New, Old; C21: New, Create, Register, Close, Rename; C22: MakeFileName, ScanPath, HasDir; C56: GetTempName; C57: ScanPath, HasDir, Old, SetSearchPath; C93: ReadLInt, WriteLInt, ReadString, WriteString |
| src/runtime/Heap.Mod | C08: REGTYP; C10: NEWREC, NEWBLK, NewChunk, ExtendHeap; C11: Mark, MarkP; C12: Scan; C13: MarkCandidates, HeapSort, Sift, MarkStack; C14: Sift, HeapSort; C15: RegisterFinalizer, CheckFin, Finalize, FINALL; C16: REGMOD, INCREF, FreeModule; C58: NEWBLK; C59: NEWREC, GC, Mark, Scan, MarkStack, ExtendHeap, InitHeap; C75: REGMOD, REGCMD, INCREF; C92: GC (enumeration of modules) |
| src/runtime/In.Mod | C26: HugeInt, Int, LongInt, Char, ReadChar, StartRead; C27: Line, String, Char, ReadChar |
| src/runtime/Modules.Mod | C16: ThisMod, Free; C22: Canonify, Trim, ExtractPart, AppendPart, IsAbsolute; C75: Init |
| src/runtime/Out.Mod | C23: Int; C24: Hex; C25: Char, String, Flush, Ln; C26: Int; C90: digit, prepend, Ten, Entier64, RealP, Real, LongReal |
| src/runtime/Platformunix.Mod | C34: YMDHMStoClock, GetClock; C56: PID |
| src/runtime/SYSTEM.c | C01: SYSTEM_DIV, SYSTEM_MOD; C05: SYSTEM_* check helpers; C09: SYSTEM_INHERIT; C58: SYSTEM_NEWARR; C92: SYSTEM_ENUMP, SYSTEM_ENUMR |
| src/runtime/SYSTEM.h | C01: __DIV, __MOD, __DIVF, __MODF; C02: __ABS, __ABSF, SYSTEM_ABS32, SYSTEM_ABS64; C03: __ASH, __LSH, __ROT, __ASHL, __ASHR, __ASHF; C04: __SETOF, __SETRNG, __IN; C05: __X, __XF, __R, __RF, __CHR, __CHRF, __SHORT, __SHORTF; C06: __STRCMP, __str_cmp; C07: __COPY; C08: __IS, __ISP, __GUARDP, __GUARDR, __INITYP, MAXEXT; C09: __INITBP, __SEND, __TDESC; C40: __ASHL, __ASHR, __MASK; C65: __DUP, __DUPARR; C66: __CASECHK __WITHCHK __RETCHK __ASSERT; C68: __MOVE, __DUP, __DUPARR, __GUARDEQR, __GUARDEQP; C71: __SETOF, __SETRNG, __IN; C72: __ABS, __ASH, __DIV, __MOD, __CAP, __SHORT, __CHR; C73: __X, __R, __SHORT, __CHR, __LSH, __ROT, __ASH, __DIV, __MOD, __ABS, __IN, __ISP, __GUARDP, __SEND; C75: __DEFMOD, __REGMOD, __REGMAIN, __MODULE_IMPORT, __INIT, __FINI; C83: __X, __XF, __GUARDP, __GUARDR, __IS; C89: __CAP; C95: __MOVE; C99: __LSH |
| src/runtime/Strings.Mod | C28: Append, Length; C29: Insert, Delete, Replace, Extract; C30: Pos; C31: Match |
| src/runtime/Texts.Mod | C32: Find, Split, Merge, Splice, Clone, OpenBuf, Copy, Recall, Save, Insert, Append, Delete, ChangeLooks, OpenReader, Read, OpenWriter, Write, WriteElem, Open, Load0; C33: WriteInt, WriteHex, Scan, Write; C34: WriteDate; C93: Store, StoreElem, Load0, LoadElem, Load, Open, Close, HandleAlien |
| src/tools/make/configure.c | C94: writeConfigurationMod |

## What is not modelled

* Whole modules: the mathematical functions (Math, MathL, oocRealMath, oocLRealMath, oocComplexMath …), Platformwindows, VT100,
  Oberon, the X11 and printer interfaces, the ulm stream, event and persistence modules, ethBTrees, ethZip and the
  compression proper (ethZlibDeflate, ethZlibInflate), oocTextRider and oocChannel, MultiArrays, Coco/R, the browser, and the tests.
* The C compiler, the linker, the operating system and the C library; system calls are modelled by their documented effect.
* Texts: elements whose modules are loaded, the backup file of Close and System 3 documents; reading and writing of real numbers in Texts and In.
* Real arithmetic of programs, except in C79 and C90; constant folding of reals.
* Windows and big-endian variants of the run-time system.
* Time and memory used, except where a property speaks of termination or of heap sizes.

### Observations outside the theorems

These were noticed while reading the source for the model. No theorem covers them.

* OPT: the count of hidden pointers is reset or carried over by nested records, so that error 223 comes too late or too early.
* OPT: an array whose type is reached again through its own elements while being read from a symbol file gets size 0.
* OPT: re-reading a type through the file of another module creates new entries for its anonymous component types.
* OPT: a REAL constant is exported rounded to single precision.
* OPB: the upper bound of a case label range is not checked for its size.
* OPB: assigning an open array to an array is always rejected (error 113) although the code generator has a case for it.
* OPB: ENTIER of a constant real always has the type LONGINT.
* OPC: the counter of stamped names and the counter of exit labels have 16 bits.
* OPC: a header declares a private field of anonymous type that follows an exported field of the same type.
* OPC: the initialisation calls of imported modules come in the alphabetical order of their local names; cyclic imports recurse for ever at start-up.
* OPV: the list of expressions that need a closing parenthesis lacks the guarded assignment; a designator under SYSTEM.VAL loses its cast.
* OPV: SYSTEM.LSH and SYSTEM.ROT of CHAR and SET have a signed C type; a type guard `p(T)` passed as VAR argument gives C that is no lvalue.
* OPP: the name of a forward pointer may be bound to a type of an outer scope; duplicate fields are accepted when a record still being declared is extended.
* OPP: a method named like an exported field of an imported base type ends in error 119.
* OPM: errors within nine characters of the previous one are not shown; an empty or missing source file ends the whole run.
* WITH: a variable under a type guard can be changed through an alias.
* Files: Old stores the given name and not the resolved path. Heap: a rest of exactly nine units is lost until the next collection.
* Platform: MTimeAsClock passes the address of a 32-bit integer to localtime. Texts: Scan reads a sign variable that may not have been set.
* Texts: inserting the same element twice with WriteElem corrupts the ring.
* Modules: errint and GetIntArg overflow for the lowest integer.
* Reals: Expo with 4-byte INTEGER reads beyond its argument.
* oocLongInts: the spare first element is ignored, and BPower can leave its array.
* SYSTEM.PTR: a type guard on an untagged array reads before its descriptor.
* Texts: Open takes every file whose first byte is 0F0H for a stored text. Close traps for names of 60 or more characters after the text was written and before it is registered. An alien whose module name has 31 characters answers with a name without end.
* extTools: the branch for the Microsoft compiler compares with "MSC", but configure.c writes "msc", so it is never taken.
* ulmNetIO: real numbers are sent in the byte order of the machine, integers in network order.

## Violations found

Each is a theorem ending in `_refuted`, proved by a concrete execution of the model.

| Property | Theorems | What is wrong |
|---|---|---|
| C01 | C01_div_near_max_refuted | Exact for all operands up to 32 bits; for 64-bit operands the result is floored whenever defined, in both emitted forms, and the undefined operand pairs are characterised exactly. The full claim is refuted near the ends of the 64-bit range. |
| C02 | C02_abs64_refuted | Inline form exact. The 64-bit run-time routine truncates to 32 bits (refuted), exact domain characterised. |
| C03 | C03_rot_by_zero_refuted | ASH and LSH for all counts below the width; ROT for non-zero counts, and by 0 for 8 and 16 bits; ROT by 0 is undefined C for 32/64-bit operands (refuted). |
| C04 | C04_in_hugeint_refuted | All constructors and operators; IN for elements up to 32 bits, and for exactly which 64-bit elements it is exact or undefined (refuted part). |
| C05 | C05_short_routine_refuted, C05_negative_index_refuted, C05_negative_chr_refuted | Routine forms exact, save that SHORT of a value near the maximum of its type overflows instead of trapping (refuted). Inline index and CHR checks let negative values pass (refuted). |
| C08 | C08_depth_refuted | For up to 16 proper base types (17 levels; the last one uses the reserved word after the table), which is the supported depth. Deeper hierarchies are accepted by the compiler but the program halts at start (finding C08_depth_refuted). |
| C10 | C10_initial_heap_refuted | NEWREC in every valid heap: fresh, cleared, aligned, disjoint from everything alive; NIL only after a refusal by the operating system. The initial heap is valid if the first request succeeds (otherwise InitHeap writes through NIL, finding C10_initial_heap_refuted). Histories: C59. |
| C13 | C13_exact_addresses_refuted | MarkStack/HeapSort/MarkCandidates on every heap and word list: blocks pointed to (start or inside) and what they reach are marked, and nothing else. C13_exact_addresses_refuted: the stronger claim that only exact addresses of allocated blocks count is false; interior words and words pointing into free blocks count too. |
| C15 | C15_exit_ends_refuted | Only objects unreachable from variables and stack are finalized, conservation over all histories, all called at exit. A finalizer that registers again for ever keeps the program from ending (finding C15_exit_ends_refuted). Finalizers are modelled as oracles that may register but do not start collections or change the heap. |
| C16 | C16_release_refuted, C16_long_name_refuted | C16_unload_safe (nothing that was imported is unloaded), C16_unload_effect, C16_lookup, C16_loaded_found (module names up to 19 and command names up to 23 characters). Refuted parts: C16_release_refuted (unloading does not release the imports of the module), C16_long_name_refuted (names of 20 or more characters are cut and not found). |
| C17 | C17_overlong_refuted | WriteNum/ReadNum on the buffered file of C20: shortest encoding of at most 10 bytes, exact consumption, prefix freedom, round trip for every variable size. Finding: an over-long number (11 continuation bytes) makes ReadNum shift by 70 bits (C17_overlong_refuted). |
| C18 | C18_int32_refuted, C18_int_rangecheck_refuted, C18_lint64_refuted, C18_short_read_refuted | Round trips in the Oberon-2 data model (16/32 bit), sets, booleans and the bytes of reals. Findings: in the component model (32/64 bit) negative INTEGER/LONGINT values do not come back; compiled with range checks WriteInt traps above 255; a read at end of file returns uninitialised memory. Big-endian FlipBytes not modelled. |
| C19 | C19_readline_last_refuted | WriteString/ReadString/ReadLine on the buffered file; strings up to 32767 characters (INTEGER index). Finding: ReadLine of a last line without LF needs one more array element. |
| C20 | C20_eof_after_read_refuted | Refinement of the buffered file (Files.Mod 151-486) to a flat byte array for every operation history and any number of riders; Close writes the content. Finding: eof of a rider is sticky and only reset when an internal Set happens (C20_eof_after_read_refuted). Not covered: operating-system errors, file length beyond MAX(LONGINT). |
| C21 | C21_lost_old_file_refuted, C21_partial_file_refuted, C21_open_previous_refuted | Model: the file model of C20 with its log of system calls, a directory, Deregister/Rename/Register. Proved: nothing but the temporary name changes before Register, at every stop point; after Register the name denotes exactly the bytes written; other names are intact at every stop point; for a file that has outgrown its buffers and no open previous version Register is atomic. Findings: a file that fits in the buffers is registered by unlinking the old file and writing in place (C21_lost_old_file_refuted, C21_partial_file_refuted); an open previous version is renamed away first (C21_open_previous_refuted). System calls are taken to succeed. |
| C22 | C22_trim_dot_refuted, C22_trim_slashes_refuted, C22_trim_backslash_refuted, C22_makefilename_root_refuted | Trim, Canonify, ExtractPart, AppendPart and MakeFileName compute the stated name for all strings, and the name denotes the same file in every directory tree (symbolic-link free model). Refuted edge cases: Trim of "." gives "", "///x" becomes "//x", backslash counts as a separator, MakeFileName with directory "/" loses the slash. |
| C24 | C24_hex_sixteen_refuted, C24_hex_negative_refuted | Nonnegative values exact at every width; negatives print the low n digits of the two's complement value (finding). The 16-digit case needs ROT by 0, undefined C (refuted), so those theorems use a rotation that treats 0 as identity. |
| C25 | C25_empty_string_refuted, C25_short_write_refuted | Nothing lost, duplicated or reordered for any history, given that write accepts all bytes. Findings: an empty string with a full buffer traps; partial writes lose data. |
| C26 | C26_int_overflow_refuted, C26_short_truncates_refuted | Round trip for every 64-bit value with wrapping arithmetic. In strict C, proved up to 15 digits; longer decimals overflow the hexadecimal accumulator (refuted). Int and LongInt truncate silently (refuted). |
| C27 | C27_string_loses_refuted, C27_string_exact_fit_refuted | Char, Line and successful String partition the input for every history. Findings: a failing String loses what it has read; a string of exactly LEN-1 characters is refused. |
| C28 | C28_append_terminated_refuted | Exact result of Append and Length. The claim that the result is always terminated is refuted. |
| C29 | C29_insert_beyond_refuted, C29_insert_truncation_refuted, C29_extract_truncation_refuted, C29_replace_refuted | Insert, Delete, Extract inside their domains, exact behaviour of Replace; the documented behaviour of Insert behind the end, of truncation in Insert and Extract, and of Replace at positions > 0 is refuted. |
| C30 | C30_empty_pattern_refuted | First occurrence for every non-empty pattern; empty pattern refuted (answers 0 for every start position). |
| C33 | C33_min_refuted, C33_hex_name_refuted | C33_write_int, C33_int_roundtrip, C33_sequence, C33_write_hex, C33_hex_scan, C33_name, C33_string. Not true: C33_min_refuted (scanning MIN(LONGINT) overflows), C33_hex_name_refuted (hexadecimal text starting with a letter is a name). Real numbers are not modelled. |
| C35 | C35_wrapped_refuted | Decimal, H and X literals of any length, including ones with more than 32767 digits where the counters wrap. "No literal is silently wrapped" is refuted for H literals from 2^63 to 2^64-1, which denote negative numbers (C35_wrapped_refuted; C35_hexadecimal says exactly which). Numbers with a point are not modelled. |
| C37 | C37_high_bytes_refuted | All names up to 255 ASCII letters and digits, with the next character ASCII. Bytes from 80X on are taken into names or not depending on their low bits (C37_high_bytes_refuted). |
| C38 | C38_control_refuted | Exact contents and the converse. Characters 00X..08X inside a literal are silently replaced by blanks (C38_control_refuted). |
| C39 | C39_times_refuted, C39_div_refuted, C39_ash_type_refuted | Model of MOp, ConstOp, Convert and ASH on constants as compiled to C. C39_exact: for every constant expression of any size, an accepted result is the mathematical one, fits 64 bits and has the smallest type. C39_fold, C39_div, C39_ash: exactly when each operator is exact or rejected. Also relations, conversions and sets. Refuted parts: the product of constants of opposite sign is undefined in the compiler, and rejected with error 204 where overflow wraps; MIN DIV -1 is not rejected; the type of a folded ASH is not adjusted to its value. Real constants are not modelled. |
| C40 | C40_zero_refuted | Model of Op with log, conversions, folding, shifts and masks, and of the value the written C computes. C40_same: each replaced operator computes the same value, effects and traps as the operator written. C40_exact: for every expression the nodes built compute the mathematical value with the effects of left-to-right evaluation, and have the right type. Refuted part: multiplication by the constant 0 drops the effects of the other operand. |
| C41 | C41_limits_refuted | Sizes and types of integer constants and LONG/SHORT neighbours over all 64-bit values. C41_limits: SignedMaximum and SignedMinimum are exact with wrapping subtraction; C41_limits_refuted (finding beyond the claim): in strict C SignedMaximum(8) is a signed overflow. |
| C42 | C42_size_refuted, C42_length_refuted | All scalar parts of every type are disjoint, inside and aligned; fields ascend; extensions keep the offsets of their base and may use its trailing gap. Refuted: sizes are computed in 32 bits without a check, and array lengths are cut to 32 bits without an error. |
| C43 | C43_hidden_refuted, C43_field_refuted | Written fields are at the compiler's offsets; in the own C file sizes and alignments agree for every type; in clients if the record is fit (sufficient condition). The pointer table is exactly the traced pointers, ascending. Refuted: for RECORD a*: CHAR; p: INT64; b*: INT32 END the client's struct has 20 bytes where the compiler assumes 24. |
| C44 | C44_double_refuted | Find equals the lookup in the innermost scope after every history without errors; duplicates are reported exactly when the scope has the name; hidden FOR variables never clash. Refuted: a rejected declaration can drop the left subtree of the first one. |
| C46 | C46_large_refuted | Accepted CASE statements have pairwise disjoint labels of the right type and select the branch whose label contains the value, else the default (C46_accept, C46_select). Refuted: labels are truncated to 32 bits, so that 64-bit labels are lost or collide, and MIN and MAX labels together overflow. |
| C47 | C47_end_refuted | FOR executes the body for from, from+step, ... up to the limit, evaluates both bounds once, and terminates when the last increment stays within the type. Refuted: a limit near the type's maximum loops forever (8 and 16 bits) or is undefined (32 and 64 bits). |
| C48 | C48_literal_refuted | Every 64-bit integer is written as a C expression of its value (with the paren form for the minimum values), every set as its bits. Refuted part: IntLiteral(MIN(INT32), 8) is an expression of type int, not INT64. |
| C52 | C52_hash_refuted, C52_size_t_refuted, C52_c99_refuted | Generated names are distinct and escape the listed C words. Refuted: hash collisions leave UINT32 and UINT8 unescaped; module size, object t is size_t; C99 words are missing. |
| C53 | C53_model_refuted | No leak between files, toggling by parity, order and double use, for all argument lists. C53_model_refuted records that the size model, which is not an on/off option, is not toggled but replaced. |
| C54 | C54_start_refuted | For every source, position and history of earlier reports. Refuted part: a position at the very start of a line is reported on the line before unless that line is already cached. |
| C56 | C56_counter_wraps_refuted, C56_pid_truncated_refuted | Exact value of GetTempName; names are unique for counters 0..32767 and process numbers 0..32767, and never equal an ordinary final name. The full claim is refuted: the 16-bit counter wraps and prints nothing, and process numbers are truncated to 16 bits. |
| C57 | C57_empty_home_refuted | ScanPath enumerates the directories of the search path in order and Old opens the first that works, for every file system (oracle), provided directories fit the 256-character buffers. Refuted when HOME is empty: an entry "~" ends the search. The cache of open files and the warnings of Old are not modelled here. |
| C58 | C58_fixed_array_refuted, C58_two_dimensions_refuted, C58_count_overflow_refuted, C58_no_memory_refuted | Proved for element alignment up to 8, records with pointers and any dimensions, and arrays of pointers with exactly one open dimension. Refuted (findings) for arrays of pointers without open dimension (element 0 invisible to the collector: its object is reclaimed while in use), with two or more open dimensions (a length is followed as a pointer), for element counts that overflow, and when memory is refused. |
| C62 | C62_long_constant_refuted, C62_array_size_refuted | Real constants are their bytes. Fingerprints and messages about changed symbol files are C45. Assumed: at most 2048 hidden pointers in all records together (the compiler's own check counts them wrongly), integer constants within 32 bits and no array type reachable from the part of its element type that is read before its size; the last two are shown to be needed by theorems. |
| C63 | C63_hidden_extension_refuted, C63_hidden_untraced_refuted | Holds when hidden fields contain no extended records and no untraced pointers; both exceptions are refuted by theorems (a hidden field of an extended record type loses the pointers of the base type). The sums are not checked for overflow in this model (C42 is about sizes). |
| C64 | C64_empty_refuted, C64_range_refuted, C64_long_refuted | Acceptance, values, LengthInt and (for 32-bit LONGINT) the round trip are proved. Refuted: strEmpty is also the answer for strings such as x1, strOutOfRange for strings such as 99999999999999999999x, and IntToStr for 64-bit LONGINT stops the program on numbers of more than 11 characters and writes -2147483648 for the smallest number. |
| C65 | C65_open_matrix_refuted, C65_var_array_refuted, C65_guard_refuted | Simulation for all accepted programs outside three refuted cases: lengths of many-dimensional open arrays are not put into the scope struct (loop never advances dim), fixed-size VAR arrays of an enclosing procedure lack a dereference, type guards on an enclosing procedure's VAR record name an undeclared identifier. Operators are abstract total functions; evaluation order left to right; pointers/heap not included. |
| C68 | C68_extended_value_records_refuted, C68_short_value_arrays_refuted, C68_guarded_assignment_refuted, C68_self_assignment_refuted, C68_designator_evaluated_twice_refuted | Violations found: a value record parameter with an actual of an extended type is written without a cast, so the generated C is rejected; a value parameter of a fixed array type copies its full size from a shorter array or string, reading beyond it; r(T) := v on a VAR parameter compares with and assigns as the unguarded type; a := a for arrays is memcpy onto itself; a record assigned to a[F()]^ evaluates F twice. Numeric conversion of scalars is in C55/C05. |
| C69 | C69_empty_string_refuted, C69_upper_half_refuted, C69_malformed_refuted, C69_malformed_overflow_refuted, C69_lossy_refuted, C69_incomplete_refuted | Violations found: the empty string leaves the target array unchanged, without 0X; with 16-bit INTEGER the characters U+8000-U+FFFF become a single byte; malformed UTF-8 is converted without a report, and a byte FEX overflows LONGINT; lossy is never assigned; an incomplete first character makes UTF8toASCII read the element before the array. Upper and lower case conversion are not modelled. |
| C70 | C70_negative_refuted, C70_elements_refuted | Violations found: a negative element is not trapped, the word before the array is used; Elements (and Print) compute the number of elements in INTEGER, so with 1024 words of 32 bits the result is 0. Sets.Equal and the other two-operand procedures trap if the second array is shorter. Print is not modelled. |
| C71 | C71_minus_refuted, C71_complement_refuted, C71_range_refuted | Violations found: s - {31} with a 64-element variable s removes all elements from 31 on, because the literal 0x80000000 has C type unsigned int and is complemented in 32 bits; with 64-element SETs (-OV) the complement of a constant set lacks the elements from 32 on; a constant range with a bound above 31 is undefined behaviour in the compiler, whose own sets have 32 elements. Big-endian layout in SetSetType is not modelled. |
| C72 | C72_constant_ash_refuted, C72_short_ord_refuted, C72_chr_negative_refuted, C72_abs_call_refuted, C72_div_refuted, C72_product_refuted | Violations found: ASH(1, 40) of constants keeps the type LONGINT of 4 bytes, is not reported and is stored as 0; with range checks SHORT(ORD(ch)) is not checked and CHR of a negative call-free value is not checked; ABS of a call of 8 bytes loses the upper half; DIV of large 8-byte numbers overflows on the way; constant products of opposite sign make the compiler divide by zero (C39). The theorems carry the condition clean that excludes them. |
| C73 | C73_in_refuted, C73_in_set_refuted, C73_shift_refuted, C73_ash_refuted, C73_guard_refuted, C73_receiver_refuted, C73_element_refuted, C73_parameter_refuted, C73_index_refuted | C operands are taken from left to right; C leaves the order open except in &&, // and ?:. Violations found and proved: f() IN s calls f twice; i IN f() with i outside the set does not call f; SYSTEM.LSH(x, f()), SYSTEM.ROT(f(), 3), SYSTEM.ROT(x, f()) call f two or three times; ASH(f(), n) reads n before and after f; a[f()](T), a[f()].m, a[f()][i] of a pointer to an open array and P(a[f()]^) for records and open arrays by reference call f twice; p[f()] where f replaces p is checked against the new array and accesses the old one beyond its end. The theorems carry the condition once that excludes them. |
| C77 | C77_adler_refuted | Adler32 reduces its sums every 5552 bytes, a number computed for unsigned 32-bit sums; LONGINT is signed here, so 5552 bytes of 255 overflow (C77_adler_refuted). Proved: exact for pieces of up to 3854 bytes, and for any length if no byte exceeds 115. |
| C78 | C78_digest_refuted | The additions of signed LONGINTs overflow on every block, so by the rules of C the program is undefined even for the empty message (C78_digest_refuted); the theorem is about a compiler whose additions wrap around. Messages of 2^29 bytes or more get a wrong length word (in[15] is always 0). |
| C79 | C79_random_refuted, C79_uniform_refuted | The last clause is refuted: Random and Uniform return 1.0 for some states (rounding), Uniform stays at 1.0 for ever from seed 0, and InitSeed accepts negative seeds, from which the step can overflow. |
| C81 | C81_body_refuted, C81_names_refuted | Proved: consistency of all chains, calls, at most one body, acceptance of lawful modules. Refuted: every procedure has a body (a forward declaration that redefines an inherited procedure needs none: error 129 is suppressed because the set of marks is not empty), and distinct names (a procedure of a base type may be declared with the name of a field of an extension). Proved part: every procedure that redefines nothing has a body. |
| C83 | C83_guard_refuted, C83_negative_refuted, C83_empty_refuted | Refuted in full: a guard with a pointer to an array of records is accepted on a pointer to such a record; a negative index in an expression without side effects and the constant index 0 of an empty open array are not stopped. The partial theorems exclude these cases. Type-bound procedures as selectors are not modelled here; storage does not change during the evaluation of one designator. |
| C84 | C84_len_refuted, C84_readonly_refuted, C84_fits_refuted | Refuted in full: LEN accepts the name of a type; GET and NEW of SYSTEM write read-only variables; a constant ASH or ENTIER can exceed its type LONGINT. ASH of the lowest 64-bit constant is undefined behaviour in the compiler. SYSTEM.ADR, SYSTEM.CC and warnings are not modelled; GETREG and PUTREG are always rejected, because the highest register number is -1. |
| C85 | C85_days_refuted | Refuted beyond 28 February 2100: the day after it becomes 29 February 2100, and 1 January 2101 is numbered one too high. The exactness of the LONGREAL products and quotients in oocJulianDay is argued in a comment, not proved. |
| C86 | C86_add_refuted, C86_add_time_refuted | Refuted in full: INTEGER wraps when the last 59 amounts are added to minutes or seconds, and AddTime overflows LONGINT for the last 59 seconds. Scale and Fraction (LONGREAL) are not modelled. |
| C87 | C87_elements_refuted, C87_named_refuted | Refuted in full: a parameter ARRAY OF ARRAY 4 OF T is declared as an array of pointers, and an open array type with a name whose elements are pointers without a name loses a star (C87_elements_refuted, C87_named_refuted); these are excluded in the partial theorems. Names are taken as defined already; the fields of records are in C43. |
| C88 | C88_ends_refuted, C88_accepts_refuted, C88_struct_refuted | Refuted in full: POINTER TO ARRAY OF RECORD p: P END with the pointer's own name P makes the compiler recurse for ever (C88_ends_refuted); a type-bound procedure that uses a type containing its record is accepted or rejected depending on the order of the type names (C88_accepts_refuted); an array of a record without a name may be defined before the structure of that record (C88_struct_refuted). The text of the items is in C87 and C43. |
| C89 | C89_delete_refuted, C89_capitalize_refuted | Sums of parameters beyond 2^31-1 are excluded in the _partial theorems. With INTEGER of 4 bytes Delete(s, 5, MAX(INTEGER)) overflows (C89_delete_refuted). CAP masks every character with 5FH, so Capitalize turns digits into control characters and cuts the string at the first blank (C89_capitalize_refuted); for letters it is right (C89_capitalize_partial). |
| C90 | C90_exponent_refuted, C90_leading_refuted, C90_denormal_refuted | Next to a power of ten the rounding carry is not reflected in the exponent, which has been written already, so the text may be ten times too small: 10-2^-21 is written 1.0E+00 (C90_exponent_refuted). The accuracy theorem therefore excludes such numbers. For very small numbers the first digit may be zero (C90_leading_refuted). Denormal numbers are written as zero (C90_denormal_refuted). |
| C91 | C91_refused_refuted, C91_object_refuted, C91_local_refuted | A refused interface change deletes the old symbol file, so the same command succeeds when it is repeated (C91_refused_refuted). If another directory comes first on the search path, a stale symbol file may stay beside a new object file (C91_object_refuted); if an equal symbol file is found in a library, none is written beside the object file (C91_local_refuted). |
| C93 | C93_store_again_refuted, C93_crlf_refuted, C93_fonts_refuted, C93_tag_refuted | Proved for at most 30 font names and 62 kinds of elements, without fonts and without CR LF in ascii pieces. Refuted: fonts do not come back, so a loaded text cannot be stored again (trap); CR LF of an ascii file becomes two line ends; a run after the 31st font traps; Load mistakes a text whose header length ends in the bytes 1 and 240 for one with the old tag. Elements are loaded as aliens (their modules absent); System 3 documents, the backup file of Close and 64-bit LONGINT are not modelled. |
| C94 | C94_stale_refuted, C94_cut_refuted, C94_darwin_refuted | Proved for builds from the start in any order that respects imports, and for commands that fit. Refuted: a module that gets a further import while its exports stay the same keeps its old symbol file, so the further module is not linked; the list of object files is cut off at 2048 characters without a message; static linking on Darwin does not quote the directory. Shell characters other than blanks and quotes are excluded; the Microsoft compiler is not modelled. |
| C95 | C95_fill_refuted, C95_overlap_refuted, C95_reread_refuted, C95_drain_refuted | The full claim fails. Fill of a buffer that still has unread bytes moves them to the beginning but leaves the position behind them, so they are skipped and later reads leave the memory. Reread lets the position go before the beginning. Fill and Drain copy overlapping memory with memcpy when the remaining bytes are more than those consumed or taken, although the head of the module says that moves never overlap. |
| C97 | C97_path_refuted, C97_dot_refuted, C97_user_refuted, C97_home_refuted | Proved for arrays with room for the whole name; C97_path_refuted shows that an array with room for the file name only gets nothing, because the name is truncated before the path is deleted. C97_dot_refuted: a name that ends with a period loses it on the way through GetExt and AddExt. C97_user_refuted and C97_home_refuted: the user is compared with the first 31 characters of a line, so a named user is never found and the current user's directory is taken, while the empty line read at the end of the file counts as the user with the empty name, so that a tilde alone is not expanded; C97_expand_partial covers names without a tilde. |
| C98 | C98_empty_refuted, C98_bounds_refuted, C98_behind_refuted | C98_match_partial: right for all patterns without question marks. With question marks the claim is false: C98_empty_refuted (a question mark followed by a star is found in the empty string), C98_bounds_refuted (index trap), C98_behind_refuted (the result depends on the characters behind the end). |
| C99 | C99_seed_refuted, C99_unseeded_refuted, C99_real_refuted, C99_range_refuted | C99_stream_partial: right for every state set with SetSeeds; C99_exists: every state has a sequence. C99_seed_refuted: SetSeed overflows a LONGINT for every seed, which has no defined meaning in C; C99_unseeded_refuted: so does the first call without a seed. C99_real_refuted: Real is negative for half of the numbers. C99_range_refuted: IntRange copies two bytes where four were meant and multiplies without the long type, so its result is out of range or undefined. |
| C100 | C100_trunc_refuted, C100_close_refuted | C100_text_partial: right for all histories in which no truncation gives up a block of 512 bytes. C100_trunc_refuted: after such a truncation the counter is one less than the number of buffers kept, so the remaining bytes are read as zeros from a new buffer. C100_close_refuted: if the counter became 0, closing does not release the old buffer, and what is written afterwards is not what is read. |
| C101 | C101_cycle_refuted, C101_stopped_refuted, C101_leak_refuted | Proved for dependencies without cycles: all calls return, counts, keys, propagation of all changes to exactly the dependants, permanence of termination. Refuted: a resource may depend on itself and then notifications never return; a terminated resource made dependent afterwards is reported as stopped; an unreferenced dependant never gives its key back. |
| C102 | C102_add_refuted, C102_remove_refuted, C102_cycle_refuted | Proved: all histories behave like the map, Seek through forwards finds the first on the way, calls return if the chain ends, Add makes a new identifier visible, Unique counts up to 2^31-1. Refuted: Add through an object that forwards and has the identifier itself leaves the old discipline visible; Remove can uncover another one; circles of forwards are accepted and then nothing returns. |
| C103 | C103_negative_refuted, C103_many_refuted, C103_add_refuted | Proved: differences exact and in range, sums exact, sum minus part, comparison, setting with microseconds in range (also negative seconds). Refuted for all inputs of the branch: negative microseconds are added instead of subtracted; a million microseconds or more give negative seconds and one second too much, or an overflow. Refuted: a sum with exactly one million microseconds is not carried and compares as earlier than the same time. Seen but outside the model: GetValue of a time of another scale converts an uninitialised variable instead of its argument. |
| C104 | C104_interface_refuted, C104_const_refuted | Missing: errors of devices and forwarding to other streams; ReadChar, ReadInteger and ReadReal are the same code as the modelled ones. Refuted: Seek has a value parameter, so a stream with an attached interface makes every call follow a NIL pointer. Refuted: a constant string of less than 512 characters that contains 0X is cut at it, although its full length is sent. Real numbers travel in the byte order of the machine, unlike integers. |
| C105 | C105_zero_refuted | Proved for all numerals other than zero, for acceptance of numerals only, for empty strings for the value of every accepted string and for the length of the shortest numeral of every integer. Refuted for all numerals of zero: the start index stays -1, so that with nine characters in front of the terminator the code reads before the string, and with more the zero is reported as out of range. Strings are shorter than 2^15 characters; LONGINT has 32 bits (with 64 bits the limits are still those of 32 bits). |
| C106 | C106_extract_refuted, C106_cap_refuted | Proved: Length, Insert, Append, Delete, Replace and Pos for all strings and arrays; Extract unless the number of characters is exactly the size of the array; Cap for strings of letters. Refuted: Extract of exactly as many characters as the array has elements traps. Refuted: Cap keeps only the bits of 5FH, so that a blank ends the string and digits become control characters. |
| C107 | C107_short_refuted, C107_counter_refuted | Missing: errors of the output stream. Refuted for all texts: without a number, a key that is too short is not reported, the text is cut and one byte of it is lost. Refuted: without a number the counter still runs down and overflows, at once if the lowest number is given. |
