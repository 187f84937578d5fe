## What is not modelled

* Whole modules: the mathematical functions (Math, MathL, oocRealMath, oocLRealMath, oocComplexMath …), Platformwindows, VT100,
  Oberon, the X11 and printer interfaces, the ulm stream, event and persistence modules, ethBTrees, ethZip and the
  compression proper (ethZlibDeflate, ethZlibInflate), oocTextRider and oocChannel, MultiArrays, Coco/R, the browser, and the tests.
* The C compiler, the linker, the operating system and the C library; system calls are modelled by their documented effect.
* Texts: elements whose modules are loaded, the backup file of Close and System 3 documents; reading and writing of real numbers in Texts and In.
* Real arithmetic of programs, except in C79 and C90; constant folding of reals.
* Windows and big-endian variants of the run-time system.
* Time and memory used, except where a property speaks of termination or of heap sizes.

### Observations outside the theorems

These were noticed while reading the source for the model. No theorem covers them.

* OPT: the count of hidden pointers is reset or carried over by nested records, so that error 223 comes too late or too early.
* OPT: an array whose type is reached again through its own elements while being read from a symbol file gets size 0.
* OPT: re-reading a type through the file of another module creates new entries for its anonymous component types.
* OPT: a REAL constant is exported rounded to single precision.
* OPB: the upper bound of a case label range is not checked for its size.
* OPB: assigning an open array to an array is always rejected (error 113) although the code generator has a case for it.
* OPB: ENTIER of a constant real always has the type LONGINT.
* OPC: the counter of stamped names and the counter of exit labels have 16 bits.
* OPC: a header declares a private field of anonymous type that follows an exported field of the same type.
* OPC: the initialisation calls of imported modules come in the alphabetical order of their local names; cyclic imports recurse for ever at start-up.
* OPV: the list of expressions that need a closing parenthesis lacks the guarded assignment; a designator under SYSTEM.VAL loses its cast.
* OPV: SYSTEM.LSH and SYSTEM.ROT of CHAR and SET have a signed C type; a type guard `p(T)` passed as VAR argument gives C that is no lvalue.
* OPP: the name of a forward pointer may be bound to a type of an outer scope; duplicate fields are accepted when a record still being declared is extended.
* OPP: a method named like an exported field of an imported base type ends in error 119.
* OPM: errors within nine characters of the previous one are not shown; an empty or missing source file ends the whole run.
* WITH: a variable under a type guard can be changed through an alias.
* Files: Old stores the given name and not the resolved path. Heap: a rest of exactly nine units is lost until the next collection.
* Platform: MTimeAsClock passes the address of a 32-bit integer to localtime. Texts: Scan reads a sign variable that may not have been set.
* Texts: inserting the same element twice with WriteElem corrupts the ring.
* Modules: errint and GetIntArg overflow for the lowest integer.
* Reals: Expo with 4-byte INTEGER reads beyond its argument.
* oocLongInts: the spare first element is ignored, and BPower can leave its array.
* SYSTEM.PTR: a type guard on an untagged array reads before its descriptor.
* Texts: Open takes every file whose first byte is 0F0H for a stored text. Close traps for names of 60 or more characters after the text was written and before it is registered. An alien whose module name has 31 characters answers with a name without end.
* extTools: the branch for the Microsoft compiler compares with "MSC", but configure.c writes "msc", so it is never taken.
* ulmNetIO: real numbers are sent in the byte order of the machine, integers in network order.
