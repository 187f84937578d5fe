* Coq 8.16.1's kernel (including its `vm_compute` reduction, used for concrete witnesses and finite sweeps).
* `Print Assumptions` of every property theorem is printed at build time. For every theorem of the properties other than C90 it says
  "Closed under the global context", that is, no axiom at all.
* The theorems of C90 speak about real numbers and depend on these axioms of the standard library, and no others:
  `ClassicalDedekindReals.sig_not_dec`, `ClassicalDedekindReals.sig_forall_dec`,
  `FunctionalExtensionality.functional_extensionality_dep` and `Classical_Prop.classic`.
* Library code in the statements: the standard library (lists, integers, strings, `SpecFloat`) and, in C90, Flocq's
  `BinarySingleNaN` as the meaning of IEEE double arithmetic. Flocq adds no axioms of its own.
* The faithfulness of the hand-written model to the source text; each definition cites its lines. No extraction from the
  source, and no testing of the model against the compiled program, has taken place.
* The meaning given to the generated C: signed overflow, shifts by the width or more, and accesses outside an object are
  undefined behaviour (the programs are compiled without `-fwrapv`); operands are evaluated from left to right except where C
  sequences them otherwise.
