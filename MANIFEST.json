{
 "claims": [
  {
   "property": "C01",
   "status": "partial",
   "theorems": [
    "C01_div_mod_upto_32_bits",
    "C01_div_mod_64_bits_partial",
    "C01_div_defined_iff",
    "C01_mod_defined_iff",
    "C01_inline_64_bits",
    "C01_div_near_max_refuted"
   ],
   "note": "Exact for all operands up to 32 bits; for 64-bit operands the result is floored whenever defined, in both emitted forms, and the undefined operand pairs are characterised exactly. The full claim is refuted near the ends of the 64-bit range."
  },
  {
   "property": "C02",
   "status": "partial",
   "theorems": [
    "C02_abs_inline",
    "C02_abs_routine_partial",
    "C02_abs64_exact_domain",
    "C02_abs64_refuted"
   ],
   "note": "Inline form exact. The 64-bit run-time routine truncates to 32 bits (refuted), exact domain characterised."
  },
  {
   "property": "C03",
   "status": "partial",
   "theorems": [
    "C03_ash",
    "C03_lsh",
    "C03_rot_partial",
    "C03_rot_by_zero_refuted",
    "C03_rot_by_zero_short"
   ],
   "note": "ASH and LSH for all counts below the width; ROT for non-zero counts, and by 0 for 8 and 16 bits; ROT by 0 is undefined C for 32/64-bit operands (refuted)."
  },
  {
   "property": "C04",
   "status": "partial",
   "theorems": [
    "C04_set_constructors",
    "C04_set_operators",
    "C04_set_operators_stay_in_type",
    "C04_incl_excl",
    "C04_in_partial",
    "C04_in_hugeint_refuted",
    "C04_in_64_bits"
   ],
   "note": "All constructors and operators; IN for elements up to 32 bits, and for exactly which 64-bit elements it is exact or undefined (refuted part)."
  },
  {
   "property": "C05",
   "status": "partial",
   "theorems": [
    "C05_index_check_routine",
    "C05_chr_routine",
    "C05_short_inline",
    "C05_short_routine_partial",
    "C05_short_routine_refuted",
    "C05_index_check_inline_partial",
    "C05_chr_inline_partial",
    "C05_negative_index_refuted",
    "C05_negative_chr_refuted",
    "C05_cap_odd"
   ],
   "note": "Routine forms exact, save that SHORT of a value near the maximum of its type overflows instead of trapping (refuted). Inline index and CHR checks let negative values pass (refuted)."
  },
  {
   "property": "C06",
   "status": "proved",
   "theorems": [
    "C06_string_relations",
    "C06_total_order"
   ],
   "note": ""
  },
  {
   "property": "C07",
   "status": "proved",
   "theorems": [
    "C07_copy"
   ],
   "note": ""
  },
  {
   "property": "C08",
   "status": "proved",
   "theorems": [
    "C08_type_test",
    "C08_depth_refuted"
   ],
   "note": "For up to 16 proper base types (17 levels; the last one uses the reserved word after the table), which is the supported depth. Deeper hierarchies are accepted by the compiler but the program halts at start (finding C08_depth_refuted)."
  },
  {
   "property": "C09",
   "status": "proved",
   "theorems": [
    "C09_dispatch"
   ],
   "note": "Numbering by the compiler, inheritance of tables and calls, for all hierarchies up to 16 proper base types and up to 32767 procedures per type. Calls of the overridden procedure (name^) are direct and not modelled."
  },
  {
   "property": "C10",
   "status": "proved",
   "theorems": [
    "C10_new",
    "C10_initial_heap",
    "C10_initial_heap_refuted"
   ],
   "note": "NEWREC in every valid heap: fresh, cleared, aligned, disjoint from everything alive; NIL only after a refusal by the operating system. The initial heap is valid if the first request succeeds (otherwise InitHeap writes through NIL, finding C10_initial_heap_refuted). Histories: C59."
  },
  {
   "property": "C11",
   "status": "proved",
   "theorems": [
    "C11_mark_exactly_reachable",
    "C11_heap_roots"
   ],
   "note": "Mark (Deutsch-Schorr-Waite pointer reversal) on every finite graph, for one root and for root lists; terminates, marks exactly the reachable objects, changes nothing but mark bits."
  },
  {
   "property": "C12",
   "status": "proved",
   "theorems": [
    "C12_sweep"
   ],
   "note": "Scan on every heap: kept blocks untouched, the rest tiled by maximal free blocks, free lists exact."
  },
  {
   "property": "C13",
   "status": "proved",
   "theorems": [
    "C13_candidates",
    "C13_pointed_to_survives",
    "C13_exact_addresses_refuted"
   ],
   "note": "MarkStack/HeapSort/MarkCandidates on every heap and word list: blocks pointed to (start or inside) and what they reach are marked, and nothing else. C13_exact_addresses_refuted: the stronger claim that only exact addresses of allocated blocks count is false; interior words and words pointing into free blocks count too."
  },
  {
   "property": "C14",
   "status": "proved",
   "theorems": [
    "C14_heapsort"
   ],
   "note": "HeapSort for every array and prefix length."
  },
  {
   "property": "C15",
   "status": "proved",
   "theorems": [
    "C15_only_unreachable",
    "C15_conservation",
    "C15_all_called_at_exit",
    "C15_exit_ends",
    "C15_exit_ends_refuted"
   ],
   "note": "Only objects unreachable from variables and stack are finalized, conservation over all histories, all called at exit. A finalizer that registers again for ever keeps the program from ending (finding C15_exit_ends_refuted). Finalizers are modelled as oracles that may register but do not start collections or change the heap."
  },
  {
   "property": "C16",
   "status": "partial",
   "theorems": [
    "C16_unload_safe",
    "C16_unload_effect",
    "C16_lookup",
    "C16_loaded_found",
    "C16_release_refuted",
    "C16_long_name_refuted"
   ],
   "note": "C16_unload_safe (nothing that was imported is unloaded), C16_unload_effect, C16_lookup, C16_loaded_found (module names up to 19 and command names up to 23 characters). Refuted parts: C16_release_refuted (unloading does not release the imports of the module), C16_long_name_refuted (names of 20 or more characters are cut and not found)."
  },
  {
   "property": "C17",
   "status": "proved",
   "theorems": [
    "C17_reachable",
    "C17_write",
    "C17_read",
    "C17_roundtrip",
    "C17_prefix_free",
    "C17_overlong_refuted"
   ],
   "note": "WriteNum/ReadNum on the buffered file of C20: shortest encoding of at most 10 bytes, exact consumption, prefix freedom, round trip for every variable size. Finding: an over-long number (11 continuation bytes) makes ReadNum shift by 70 bits (C17_overlong_refuted)."
  },
  {
   "property": "C18",
   "status": "partial",
   "theorems": [
    "C18_le_val",
    "C18_write_int",
    "C18_read_int",
    "C18_int_roundtrip",
    "C18_int32_refuted",
    "C18_int_rangecheck_refuted",
    "C18_write_lint",
    "C18_read_lint",
    "C18_lint_roundtrip",
    "C18_lint64",
    "C18_lint64_refuted",
    "C18_set_roundtrip",
    "C18_bool_roundtrip",
    "C18_raw_roundtrip",
    "C18_short_read_refuted"
   ],
   "note": "Round trips in the Oberon-2 data model (16/32 bit), sets, booleans and the bytes of reals. Findings: in the component model (32/64 bit) negative INTEGER/LONGINT values do not come back; compiled with range checks WriteInt traps above 255; a read at end of file returns uninitialised memory. Big-endian FlipBytes not modelled."
  },
  {
   "property": "C19",
   "status": "proved",
   "theorems": [
    "C19_write",
    "C19_read",
    "C19_read_at_end",
    "C19_roundtrip",
    "C19_read_too_long",
    "C19_readline",
    "C19_readline_last",
    "C19_readline_last_refuted"
   ],
   "note": "WriteString/ReadString/ReadLine on the buffered file; strings up to 32767 characters (INTEGER index). Finding: ReadLine of a last line without LF needs one more array element."
  },
  {
   "property": "C20",
   "status": "proved",
   "theorems": [
    "C20_flat_file",
    "C20_flat_new",
    "C20_close",
    "C20_close_new",
    "C20_unique",
    "C20_eof_after_read_refuted"
   ],
   "note": "Refinement of the buffered file (Files.Mod 151-486) to a flat byte array for every operation history and any number of riders; Close writes the content. Finding: eof of a rider is sticky and only reset when an internal Set happens (C20_eof_after_read_refuted). Not covered: operating-system errors, file length beyond MAX(LONGINT)."
  },
  {
   "property": "C21",
   "status": "partial",
   "theorems": [
    "C21_every_history",
    "C21_invisible_before",
    "C21_registered",
    "C21_atomic_partial",
    "C21_others_intact",
    "C21_lost_old_file_refuted",
    "C21_partial_file_refuted",
    "C21_open_previous_refuted"
   ],
   "note": "Model: the file model of C20 with its log of system calls, a directory, Deregister/Rename/Register. Proved: nothing but the temporary name changes before Register, at every stop point; after Register the name denotes exactly the bytes written; other names are intact at every stop point; for a file that has outgrown its buffers and no open previous version Register is atomic. Findings: a file that fits in the buffers is registered by unlinking the old file and writing in place (C21_lost_old_file_refuted, C21_partial_file_refuted); an open previous version is renamed away first (C21_open_previous_refuted). System calls are taken to succeed."
  },
  {
   "property": "C22",
   "status": "partial",
   "theorems": [
    "C22_trim",
    "C22_trim_idempotent",
    "C22_trim_denotes",
    "C22_trim_absolute",
    "C22_canonify",
    "C22_canonify_denotes",
    "C22_program_path",
    "C22_trim_dot_refuted",
    "C22_trim_slashes_refuted",
    "C22_trim_backslash_refuted",
    "C22_makefilename",
    "C22_makefilename_denotes",
    "C22_makefilename_root_refuted"
   ],
   "note": "Trim, Canonify, ExtractPart, AppendPart and MakeFileName compute the stated name for all strings, and the name denotes the same file in every directory tree (symbolic-link free model). Refuted edge cases: Trim of \".\" gives \"\", \"///x\" becomes \"//x\", backslash counts as a separator, MakeFileName with directory \"/\" loses the slash."
  },
  {
   "property": "C23",
   "status": "proved",
   "theorems": [
    "C23_text_unique",
    "C23_text_determines",
    "C23_int"
   ],
   "note": "Every 64-bit value and width: the text is the shortest decimal numeral, right-justified; the specification determines it uniquely."
  },
  {
   "property": "C24",
   "status": "partial",
   "theorems": [
    "C24_hex_nonneg",
    "C24_hex_negative",
    "C24_hex_strict_partial",
    "C24_hex_sixteen_refuted",
    "C24_hex_negative_refuted"
   ],
   "note": "Nonnegative values exact at every width; negatives print the low n digits of the two's complement value (finding). The 16-digit case needs ROT by 0, undefined C (refuted), so those theorems use a rotation that treats 0 as identity."
  },
  {
   "property": "C25",
   "status": "partial",
   "theorems": [
    "C25_buffering",
    "C25_no_loss",
    "C25_newline_flushes",
    "C25_empty_string_refuted",
    "C25_short_write_refuted"
   ],
   "note": "Nothing lost, duplicated or reordered for any history, given that write accepts all bytes. Findings: an empty string with a full buffer traps; partial writes lose data."
  },
  {
   "property": "C26",
   "status": "partial",
   "theorems": [
    "C26_int_roundtrip",
    "C26_in_reads_out",
    "C26_hex",
    "C26_hex_reads_out",
    "C26_int_strict_partial",
    "C26_int_overflow_refuted",
    "C26_short_truncates_refuted"
   ],
   "note": "Round trip for every 64-bit value with wrapping arithmetic. In strict C, proved up to 15 digits; longer decimals overflow the hexadecimal accumulator (refuted). Int and LongInt truncate silently (refuted)."
  },
  {
   "property": "C27",
   "status": "partial",
   "theorems": [
    "C27_char",
    "C27_line",
    "C27_string",
    "C27_string_accepts",
    "C27_history",
    "C27_string_loses_refuted",
    "C27_string_exact_fit_refuted"
   ],
   "note": "Char, Line and successful String partition the input for every history. Findings: a failing String loses what it has read; a string of exactly LEN-1 characters is refused."
  },
  {
   "property": "C28",
   "status": "partial",
   "theorems": [
    "C28_append",
    "C28_append_terminated_refuted",
    "C28_length"
   ],
   "note": "Exact result of Append and Length. The claim that the result is always terminated is refuted."
  },
  {
   "property": "C29",
   "status": "partial",
   "theorems": [
    "C29_insert",
    "C29_insert_beyond_refuted",
    "C29_insert_truncation_refuted",
    "C29_delete",
    "C29_extract",
    "C29_extract_truncation_refuted",
    "C29_replace_exact",
    "C29_replace_partial",
    "C29_replace_refuted"
   ],
   "note": "Insert, Delete, Extract inside their domains, exact behaviour of Replace; the documented behaviour of Insert behind the end, of truncation in Insert and Extract, and of Replace at positions > 0 is refuted."
  },
  {
   "property": "C30",
   "status": "partial",
   "theorems": [
    "C30_pos",
    "C30_empty_pattern_refuted"
   ],
   "note": "First occurrence for every non-empty pattern; empty pattern refuted (answers 0 for every start position)."
  },
  {
   "property": "C31",
   "status": "proved",
   "theorems": [
    "C31_match",
    "C31_cap"
   ],
   "note": ""
  },
  {
   "property": "C32",
   "status": "proved",
   "theorems": [
    "C32_texts_are_sequences",
    "C32_pieces_not_observable",
    "C32_empty_save_breaks_reading",
    "C32_split_line_end_breaks_reading",
    "C32_write_after_save_loses_character",
    "C32_copy_to_self_never_ends",
    "C32_delete_in_loaded_piece_traps"
   ],
   "note": "Simulation over all histories. The client rules in the statement are each shown necessary by a proved trace or theorem. LONGINT lengths are unbounded; a loaded text is modelled only as one piece; Store, Load1 and Scan are not modelled."
  },
  {
   "property": "C33",
   "status": "partial",
   "theorems": [
    "C33_write_int",
    "C33_int_roundtrip",
    "C33_sequence",
    "C33_min_refuted",
    "C33_write_hex",
    "C33_hex_scan",
    "C33_hex_name_refuted",
    "C33_name",
    "C33_string"
   ],
   "note": "C33_write_int, C33_int_roundtrip, C33_sequence, C33_write_hex, C33_hex_scan, C33_name, C33_string. Not true: C33_min_refuted (scanning MIN(LONGINT) overflows), C33_hex_name_refuted (hexadecimal text starting with a letter is a name). Real numbers are not modelled."
  },
  {
   "property": "C34",
   "status": "proved",
   "theorems": [
    "C34_pack_unpack",
    "C34_order"
   ],
   "note": "C34_pack_unpack, C34_order."
  },
  {
   "property": "C35",
   "status": "partial",
   "theorems": [
    "C35_decimal",
    "C35_missing_suffix",
    "C35_hexadecimal",
    "C35_character",
    "C35_range",
    "C35_wrapped_refuted"
   ],
   "note": "Decimal, H and X literals of any length, including ones with more than 32767 digits where the counters wrap. \"No literal is silently wrapped\" is refuted for H literals from 2^63 to 2^64-1, which denote negative numbers (C35_wrapped_refuted; C35_hexadecimal says exactly which). Numbers with a point are not modelled."
  },
  {
   "property": "C36",
   "status": "proved",
   "theorems": [
    "C36_comment",
    "C36_nested",
    "C36_total"
   ],
   "note": "Against a two-character specification of comments (comment_end) and against a grammar of nested bodies (C36_nested). C36_total: every text has a next token. Numbers with a point deliver TReal without value."
  },
  {
   "property": "C37",
   "status": "partial",
   "theorems": [
    "C37_classify",
    "C37_reserved_iff",
    "C37_too_long",
    "C37_high_bytes_refuted"
   ],
   "note": "All names up to 255 ASCII letters and digits, with the next character ASCII. Bytes from 80X on are taken into names or not depending on their low bits (C37_high_bytes_refuted)."
  },
  {
   "property": "C38",
   "status": "partial",
   "theorems": [
    "C38_contents",
    "C38_reported",
    "C38_control_refuted"
   ],
   "note": "Exact contents and the converse. Characters 00X..08X inside a literal are silently replaced by blanks (C38_control_refuted)."
  },
  {
   "property": "C39",
   "status": "partial",
   "theorems": [
    "C39_fold",
    "C39_div",
    "C39_ash",
    "C39_times_refuted",
    "C39_times_wrapping",
    "C39_div_refuted",
    "C39_exact",
    "C39_ash_type_refuted",
    "C39_compare",
    "C39_convert",
    "C39_sets",
    "C39_complement"
   ],
   "note": "Model of MOp, ConstOp, Convert and ASH on constants as compiled to C. C39_exact: for every constant expression of any size, an accepted result is the mathematical one, fits 64 bits and has the smallest type. C39_fold, C39_div, C39_ash: exactly when each operator is exact or rejected. Also relations, conversions and sets. Refuted parts: the product of constants of opposite sign is undefined in the compiler, and rejected with error 204 where overflow wraps; MIN DIV -1 is not rejected; the type of a folded ASH is not adjusted to its value. Real constants are not modelled."
  },
  {
   "property": "C40",
   "status": "partial",
   "theorems": [
    "C40_same",
    "C40_exact",
    "C40_zero_refuted"
   ],
   "note": "Model of Op with log, conversions, folding, shifts and masks, and of the value the written C computes. C40_same: each replaced operator computes the same value, effects and traps as the operator written. C40_exact: for every expression the nodes built compute the mathematical value with the effects of left-to-right evaluation, and have the right type. Refuted part: multiplication by the constant 0 drops the effects of the other operand."
  },
  {
   "property": "C41",
   "status": "proved",
   "theorems": [
    "C41_smallest",
    "C41_longer",
    "C41_shorter",
    "C41_limits",
    "C41_limits_refuted"
   ],
   "note": "Sizes and types of integer constants and LONG/SHORT neighbours over all 64-bit values. C41_limits: SignedMaximum and SignedMinimum are exact with wrapping subtraction; C41_limits_refuted (finding beyond the claim): in strict C SignedMaximum(8) is a signed overflow."
  },
  {
   "property": "C42",
   "status": "partial",
   "theorems": [
    "C42_layout",
    "C42_record",
    "C42_extension",
    "C42_size_refuted",
    "C42_length_refuted",
    "C42_length"
   ],
   "note": "All scalar parts of every type are disjoint, inside and aligned; fields ascend; extensions keep the offsets of their base and may use its trailing gap. Refuted: sizes are computed in 32 bits without a check, and array lengths are cut to 32 bits without an error."
  },
  {
   "property": "C43",
   "status": "partial",
   "theorems": [
    "C43_offsets",
    "C43_size",
    "C43_own",
    "C43_pointers",
    "C43_ascending",
    "C43_hidden_refuted",
    "C43_field_refuted"
   ],
   "note": "Written fields are at the compiler's offsets; in the own C file sizes and alignments agree for every type; in clients if the record is fit (sufficient condition). The pointer table is exactly the traced pointers, ascending. Refuted: for RECORD a*: CHAR; p: INT64; b*: INT32 END the client's struct has 20 bytes where the compiler assumes 24."
  },
  {
   "property": "C44",
   "status": "partial",
   "theorems": [
    "C44_order",
    "C44_find",
    "C44_double",
    "C44_for",
    "C44_field",
    "C44_double_refuted"
   ],
   "note": "Find equals the lookup in the innermost scope after every history without errors; duplicates are reported exactly when the scope has the name; hidden FOR variables never clash. Refuted: a rejected declaration can drop the left subtree of the first one."
  },
  {
   "property": "C45",
   "status": "proved",
   "theorems": [
    "C45_one_word",
    "C45_one_value",
    "C45_name",
    "C45_sign_collision",
    "C45_constant_collision"
   ],
   "note": "One changed word anywhere changes the fingerprint; one changed 32-bit value of the same sign does. Findings beyond the claim: x and -1-x have the same fingerprint, so CONST c = 5 changed to -6 is not noticed, nor are some sets."
  },
  {
   "property": "C46",
   "status": "partial",
   "theorems": [
    "C46_accept",
    "C46_select",
    "C46_large_refuted"
   ],
   "note": "Accepted CASE statements have pairwise disjoint labels of the right type and select the branch whose label contains the value, else the default (C46_accept, C46_select). Refuted: labels are truncated to 32 bits, so that 64-bit labels are lost or collide, and MIN and MAX labels together overflow."
  },
  {
   "property": "C47",
   "status": "partial",
   "theorems": [
    "C47_for",
    "C47_values",
    "C47_order",
    "C47_end_refuted"
   ],
   "note": "FOR executes the body for from, from+step, ... up to the limit, evaluates both bounds once, and terminates when the last increment stays within the type. Refuted: a limit near the type's maximum loops forever (8 and 16 bits) or is undefined (32 and 64 bits)."
  },
  {
   "property": "C48",
   "status": "partial",
   "theorems": [
    "C48_value",
    "C48_literal",
    "C48_literal_refuted",
    "C48_set"
   ],
   "note": "Every 64-bit integer is written as a C expression of its value (with the paren form for the minimum values), every set as its bits. Refuted part: IntLiteral(MIN(INT32), 8) is an expression of type int, not INT64."
  },
  {
   "property": "C49",
   "status": "proved",
   "theorems": [
    "C49_character",
    "C49_string"
   ],
   "note": "Character and string literals: parsing the emitted C text by the rules of C gives back the characters, with octal escapes and trigraphs covered."
  },
  {
   "property": "C50",
   "status": "proved",
   "theorems": [
    "C50_unique",
    "C50_reads",
    "C50_separate",
    "C50_condition",
    "C50_integer"
   ],
   "note": "The text the compiler writes for every expression tree (all operators, conversions, guards, designators, calls with their parameters, open array subscripts) is read by a C parser as the intended tree, the tokens never merge, and conditions are parenthesised."
  },
  {
   "property": "C51",
   "status": "proved",
   "theorems": [
    "C51_same",
    "C51_dead"
   ],
   "note": "Same behaviour for every meaning of guards and statements, including effects and traps of the guards; no constant guard is left."
  },
  {
   "property": "C52",
   "status": "partial",
   "theorems": [
    "C52_distinct",
    "C52_words",
    "C52_hash_refuted",
    "C52_size_t_refuted",
    "C52_c99_refuted"
   ],
   "note": "Generated names are distinct and escape the listed C words. Refuted: hash collisions leave UINT32 and UINT8 unescaped; module size, object t is size_t; C99 words are missing."
  },
  {
   "property": "C53",
   "status": "proved",
   "theorems": [
    "C53_no_leak",
    "C53_toggle",
    "C53_order",
    "C53_twice",
    "C53_model_refuted"
   ],
   "note": "No leak between files, toggling by parity, order and double use, for all argument lists. C53_model_refuted records that the size model, which is not an on/off option, is not toggled but replaced."
  },
  {
   "property": "C54",
   "status": "partial",
   "theorems": [
    "C54_line",
    "C54_start",
    "C54_start_refuted",
    "C54_show"
   ],
   "note": "For every source, position and history of earlier reports. Refuted part: a position at the very start of a line is reported on the line before unless that line is already cached."
  },
  {
   "property": "C55",
   "status": "proved",
   "theorems": [
    "C55_accepted_is_safe",
    "C55_reals",
    "C55_terminates",
    "C55_complete",
    "C55_recursive_procedure_types_never_end",
    "C55_integers_to_real_round"
   ],
   "note": "Types are a table of structures compared by identity, values are an inductive relation. Accepted assignments store a value of the destination type. Also proved: exact cases for reals, the rounding exception, termination for finite nests of procedure types, endless recursion for recursive procedure types (finding), and that safe assignments are not refused."
  },
  {
   "property": "C56",
   "status": "partial",
   "theorems": [
    "C56_tempname",
    "C56_unique_partial",
    "C56_not_final",
    "C56_counter_wraps_refuted",
    "C56_pid_truncated_refuted"
   ],
   "note": "Exact value of GetTempName; names are unique for counters 0..32767 and process numbers 0..32767, and never equal an ordinary final name. The full claim is refuted: the 16-bit counter wraps and prints nothing, and process numbers are truncated to 16 bits."
  },
  {
   "property": "C57",
   "status": "partial",
   "theorems": [
    "C57_hasdir",
    "C57_scanpath",
    "C57_old",
    "C57_empty_home_refuted"
   ],
   "note": "ScanPath enumerates the directories of the search path in order and Old opens the first that works, for every file system (oracle), provided directories fit the 256-character buffers. Refuted when HOME is empty: an entry \"~\" ends the search. The cache of open files and the warnings of Old are not modelled here."
  },
  {
   "property": "C58",
   "status": "partial",
   "theorems": [
    "C58_new_array_partial",
    "C58_fixed_array_refuted",
    "C58_two_dimensions_refuted",
    "C58_count_overflow_refuted",
    "C58_no_memory_refuted"
   ],
   "note": "Proved for element alignment up to 8, records with pointers and any dimensions, and arrays of pointers with exactly one open dimension. Refuted (findings) for arrays of pointers without open dimension (element 0 invisible to the collector: its object is reclaimed while in use), with two or more open dimensions (a length is followed as a pointer), for element counts that overflow, and when memory is refused."
  },
  {
   "property": "C59",
   "status": "proved",
   "theorems": [
    "C59_transparent",
    "C59_transparent_enough_memory",
    "C59_placement_irrelevant"
   ],
   "note": "Refinement of the whole storage manager to a store of immortal objects, starting from InitHeap. Record objects only (arrays: C58); finalizers absent; words of 8 bytes."
  },
  {
   "property": "C60",
   "status": "proved",
   "theorems": [
    "C60_element",
    "C60_inside",
    "C60_distinct",
    "C60_row",
    "C60_row_start"
   ],
   "note": "The subscript is the row-major position for all numbers of dimensions; rows included."
  },
  {
   "property": "C61",
   "status": "proved",
   "theorems": [
    "C61_var_parameters",
    "C61_var_records",
    "C61_open_value_parameters",
    "C61_value_parameters",
    "C61_procedure_variables",
    "C61_system_types_are_exceptions"
   ],
   "note": "Variable parameters are checked in both directions (what the procedure reads and what it may store). The exceptions SYSTEM.PTR and SYSTEM.BYTE are shown to be real by a theorem."
  },
  {
   "property": "C62",
   "status": "partial",
   "theorems": [
    "C62_export_import",
    "C62_many_modules",
    "C62_long_constant_refuted",
    "C62_array_size_refuted"
   ],
   "note": "Real constants are their bytes. Fingerprints and messages about changed symbol files are C45. Assumed: at most 2048 hidden pointers in all records together (the compiler's own check counts them wrongly), integer constants within 32 bits and no array type reachable from the part of its element type that is read before its size; the last two are shown to be needed by theorems."
  },
  {
   "property": "C63",
   "status": "partial",
   "theorems": [
    "C63_count",
    "C63_client_offsets",
    "C63_export_import",
    "C63_hidden_extension_refuted",
    "C63_hidden_untraced_refuted"
   ],
   "note": "Holds when hidden fields contain no extended records and no untraced pointers; both exceptions are refuted by theorems (a hidden field of an extended record type loses the pointers of the base type). The sums are not checked for overflow in this model (C42 is about sizes)."
  },
  {
   "property": "C64",
   "status": "partial",
   "theorems": [
    "C64_str_to_int",
    "C64_one_value",
    "C64_empty_refuted",
    "C64_range_refuted",
    "C64_int_to_str",
    "C64_int_to_str_32",
    "C64_round_trip",
    "C64_long_traps",
    "C64_long_refuted",
    "C64_length_int"
   ],
   "note": "Acceptance, values, LengthInt and (for 32-bit LONGINT) the round trip are proved. Refuted: strEmpty is also the answer for strings such as x1, strOutOfRange for strings such as 99999999999999999999x, and IntToStr for 64-bit LONGINT stops the program on numbers of more than 11 characters and writes -2147483648 for the smallest number."
  },
  {
   "property": "C65",
   "status": "partial",
   "theorems": [
    "C65_nested",
    "C65_no_dangling",
    "C65_scopes_live",
    "C65_open_matrix_refuted",
    "C65_var_array_refuted",
    "C65_guard_refuted"
   ],
   "note": "Simulation for all accepted programs outside three refuted cases: lengths of many-dimensional open arrays are not put into the scope struct (loop never advances dim), fixed-size VAR arrays of an enclosing procedure lack a dereference, type guards on an enclosing procedure's VAR record name an undeclared identifier. Operators are abstract total functions; evaluation order left to right; pointers/heap not included."
  },
  {
   "property": "C66",
   "status": "proved",
   "theorems": [
    "C66_control",
    "C66_labels"
   ],
   "note": "Actions, conditions and expressions are arbitrary state transformers, so the theorem covers every expression. Bound: 16-bit label counter, shown sharp by an example. RETURN values with scope structs: C65. FOR is expanded by the parser: C19."
  },
  {
   "property": "C67",
   "status": "proved",
   "theorems": [
    "C67_terminates",
    "C67_statements",
    "C67_expressions",
    "C67_rejects",
    "C67_unambiguous"
   ],
   "note": "Syntax errors only, plus error 46; type errors do not change what is read. Trees before constant folding (C39) and FOR expansion (C19/C47). Declarations are not part of this model."
  },
  {
   "property": "C68",
   "status": "partial",
   "theorems": [
    "C68_assignment",
    "C68_lengths",
    "C68_open_value_parameters",
    "C68_string_parameters",
    "C68_value_parameters",
    "C68_copies_are_private",
    "C68_var_parameters",
    "C68_parameters_keep_their_shape",
    "C68_records_passed_on",
    "C68_extended_value_records_refuted",
    "C68_short_value_arrays_refuted",
    "C68_guarded_assignment_refuted",
    "C68_self_assignment_refuted",
    "C68_designator_evaluated_twice_refuted"
   ],
   "note": "Violations found: a value record parameter with an actual of an extended type is written without a cast, so the generated C is rejected; a value parameter of a fixed array type copies its full size from a shorter array or string, reading beyond it; r(T) := v on a VAR parameter compares with and assigns as the unguarded type; a := a for arrays is memcpy onto itself; a record assigned to a[F()]^ evaluates F twice. Numeric conversion of scalars is in C55/C05."
  },
  {
   "property": "C69",
   "status": "partial",
   "theorems": [
    "C69_encode",
    "C69_encode_full",
    "C69_decode",
    "C69_unambiguous",
    "C69_to_utf8",
    "C69_to_ucs4",
    "C69_to_ucs4_full",
    "C69_round_trip",
    "C69_to_ucs2",
    "C69_to_ucs2_too_large",
    "C69_to_ascii",
    "C69_to_ascii_full",
    "C69_latin1_round_trip",
    "C69_empty_string_refuted",
    "C69_upper_half_refuted",
    "C69_malformed_refuted",
    "C69_malformed_overflow_refuted",
    "C69_lossy_refuted",
    "C69_incomplete_refuted"
   ],
   "note": "Violations found: the empty string leaves the target array unchanged, without 0X; with 16-bit INTEGER the characters U+8000-U+FFFF become a single byte; malformed UTF-8 is converted without a report, and a byte FEX overflows LONGINT; lossy is never assigned; an incomplete first character makes UTF8toASCII read the element before the array. Upper and lower case conversion are not modelled."
  },
  {
   "property": "C70",
   "status": "partial",
   "theorems": [
    "C70_incl",
    "C70_excl",
    "C70_in",
    "C70_out_of_range",
    "C70_negative_refuted",
    "C70_characters",
    "C70_clear",
    "C70_fill",
    "C70_complement",
    "C70_includes",
    "C70_equal",
    "C70_different",
    "C70_empty",
    "C70_shorter_operand",
    "C70_equal_any_size",
    "C70_subset_any_size",
    "C70_unite",
    "C70_differ",
    "C70_intersect",
    "C70_operations",
    "C70_operations_lengths",
    "C70_elements",
    "C70_elements_refuted",
    "C70_card",
    "C70_card_unique"
   ],
   "note": "Violations found: a negative element is not trapped, the word before the array is used; Elements (and Print) compute the number of elements in INTEGER, so with 1024 words of 32 bits the result is 0. Sets.Equal and the other two-operand procedures trap if the second array is shorter. Print is not modelled."
  },
  {
   "property": "C71",
   "status": "partial",
   "theorems": [
    "C71_value",
    "C71_assign",
    "C71_equal",
    "C71_in",
    "C71_rejects",
    "C71_32_bits",
    "C71_minus_refuted",
    "C71_complement_refuted",
    "C71_range_refuted"
   ],
   "note": "Violations found: s - {31} with a 64-element variable s removes all elements from 31 on, because the literal 0x80000000 has C type unsigned int and is complemented in 32 bits; with 64-element SETs (-OV) the complement of a constant set lacks the elements from 32 on; a constant range with a bound above 31 is undefined behaviour in the compiler, whose own sets have 32 elements. Big-endian layout in SetSetType is not modelled."
  },
  {
   "property": "C72",
   "status": "partial",
   "theorems": [
    "C72_value",
    "C72_assign",
    "C72_relation",
    "C72_odd",
    "C72_inc",
    "C72_types",
    "C72_range_check",
    "C72_constant_ash_refuted",
    "C72_short_ord_refuted",
    "C72_chr_negative_refuted",
    "C72_abs_call_refuted",
    "C72_div_refuted",
    "C72_product_refuted"
   ],
   "note": "Violations found: ASH(1, 40) of constants keeps the type LONGINT of 4 bytes, is not reported and is stored as 0; with range checks SHORT(ORD(ch)) is not checked and CHR of a negative call-free value is not checked; ABS of a call of 8 bytes loses the upper half; DIV of large 8-byte numbers overflows on the way; constant products of opposite sign make the compiler divide by zero (C39). The theorems carry the condition clean that excludes them."
  },
  {
   "property": "C73",
   "status": "partial",
   "theorems": [
    "C73_once",
    "C73_designator",
    "C73_count",
    "C73_in_refuted",
    "C73_in_set_refuted",
    "C73_shift_refuted",
    "C73_ash_refuted",
    "C73_guard_refuted",
    "C73_receiver_refuted",
    "C73_element_refuted",
    "C73_parameter_refuted",
    "C73_index_refuted"
   ],
   "note": "C operands are taken from left to right; C leaves the order open except in &&, || and ?:. Violations found and proved: f() IN s calls f twice; i IN f() with i outside the set does not call f; SYSTEM.LSH(x, f()), SYSTEM.ROT(f(), 3), SYSTEM.ROT(x, f()) call f two or three times; ASH(f(), n) reads n before and after f; a[f()](T), a[f()].m, a[f()][i] of a pointer to an open array and P(a[f()]^) for records and open arrays by reference call f twice; p[f()] where f replaces p is checked against the new array and accesses the old one beyond its end. The theorems carry the condition once that excludes them."
  },
  {
   "property": "C74",
   "status": "proved",
   "theorems": [
    "C74_terminates",
    "C74_module",
    "C74_rejects",
    "C74_unambiguous",
    "C74_type",
    "C74_block"
   ],
   "note": "The grammar is the report's with the documented extensions (system flags, the procedure marks *, + and -). Errors about types and undeclared names are not in this property: names denote what arbitrary functions of the place say. Imports are taken as found."
  },
  {
   "property": "C75",
   "status": "proved",
   "theorems": [
    "C75_ends",
    "C75_once",
    "C75_all",
    "C75_halted",
    "C75_imports_first",
    "C75_order",
    "C75_order_unique",
    "C75_runtime"
   ],
   "note": "The imports are executed in the order of their local names, not in the order written: the comment in Modules.Mod that Platform must be imported before Heap has no effect (Heap goes first, which is what REGMOD needs). With cyclic imports, possible with stale symbol files, the start recurses for ever; the theorems assume acyclic imports."
  },
  {
   "property": "C76",
   "status": "proved",
   "theorems": [
    "C76_multiply",
    "C76_add",
    "C76_divide",
    "C76_ten_power",
    "C76_base_power"
   ],
   "note": "The first element is a spare place: MinDigit never looks at it, so a number that reaches it is no longer multiplied correctly (example in LongIntProps). BPower with a power beyond the length of the array leaves the array; this is outside the theorem."
  },
  {
   "property": "C77",
   "status": "partial",
   "theorems": [
    "C77_crc",
    "C77_crc_pieces",
    "C77_crc_detects",
    "C77_adler_partial",
    "C77_adler_pieces_partial",
    "C77_adler_refuted"
   ],
   "note": "Adler32 reduces its sums every 5552 bytes, a number computed for unsigned 32-bit sums; LONGINT is signed here, so 5552 bytes of 255 overflow (C77_adler_refuted). Proved: exact for pieces of up to 3854 bytes, and for any length if no byte exceeds 115."
  },
  {
   "property": "C78",
   "status": "partial",
   "theorems": [
    "C78_digest_partial",
    "C78_digest_refuted",
    "C78_string"
   ],
   "note": "The additions of signed LONGINTs overflow on every block, so by the rules of C the program is undefined even for the empty message (C78_digest_refuted); the theorem is about a compiler whose additions wrap around. Messages of 2^29 bytes or more get a wrong length word (in[15] is always 0)."
  },
  {
   "property": "C79",
   "status": "partial",
   "theorems": [
    "C79_step",
    "C79_seed",
    "C79_history",
    "C79_period",
    "C79_random_refuted",
    "C79_uniform_refuted",
    "C79_uniform_step"
   ],
   "note": "The last clause is refuted: Random and Uniform return 1.0 for some states (rounding), Uniform stays at 1.0 for ever from seed 0, and InitSeed accepts negative seeds, from which the step can overflow."
  },
  {
   "property": "C80",
   "status": "proved",
   "theorems": [
    "C80_exact",
    "C80_finite",
    "C80_meaning"
   ],
   "note": "Lengths, export marks, flags and the names of fields and parameters are left out. The forward pointer binds to a type of an outer scope of the same name even if the scope declares its own one later (the rules here say the same: the name is visible)."
  },
  {
   "property": "C81",
   "status": "partial",
   "theorems": [
    "C81_consistent",
    "C81_call",
    "C81_body_partial",
    "C81_one_body",
    "C81_accepts",
    "C81_body_refuted",
    "C81_names_refuted"
   ],
   "note": "Proved: consistency of all chains, calls, at most one body, acceptance of lawful modules. Refuted: every procedure has a body (a forward declaration that redefines an inherited procedure needs none: error 129 is suppressed because the set of marks is not empty), and distinct names (a procedure of a base type may be declared with the name of a field of an extension). Proved part: every procedure that redefines nothing has a body."
  },
  {
   "property": "C82",
   "status": "proved",
   "theorems": [
    "C82_exact",
    "C82_converted",
    "C82_constant",
    "C82_monadic",
    "C82_in",
    "C82_element",
    "C82_range",
    "C82_terminates"
   ],
   "note": "Values of constant expressions are the subject of the properties on folding; here their errors and result types are parameters. Operands with the error type are excluded. SYSTEM.ADR and SYSTEM.CC are not modelled."
  },
  {
   "property": "C83",
   "status": "partial",
   "theorems": [
    "C83_exact_partial",
    "C83_terminates",
    "C83_safe_partial",
    "C83_tag",
    "C83_is",
    "C83_readonly",
    "C83_guard_refuted",
    "C83_negative_refuted",
    "C83_empty_refuted"
   ],
   "note": "Refuted in full: a guard with a pointer to an array of records is accepted on a pointer to such a record; a negative index in an expression without side effects and the constant index 0 of an empty open array are not stopped. The partial theorems exclude these cases. Type-bound procedures as selectors are not modelled here; storage does not change during the evaluation of one designator."
  },
  {
   "property": "C84",
   "status": "partial",
   "theorems": [
    "C84_exact_partial",
    "C84_total",
    "C84_readonly_partial",
    "C84_len",
    "C84_fits_partial",
    "C84_len_refuted",
    "C84_readonly_refuted",
    "C84_fits_refuted"
   ],
   "note": "Refuted in full: LEN accepts the name of a type; GET and NEW of SYSTEM write read-only variables; a constant ASH or ENTIER can exceed its type LONGINT. ASH of the lowest 64-bit constant is undefined behaviour in the compiler. SYSTEM.ADR, SYSTEM.CC and warnings are not modelled; GETREG and PUTREG are always rejected, because the highest register number is -1."
  },
  {
   "property": "C85",
   "status": "partial",
   "theorems": [
    "C85_days_partial",
    "C85_days_refuted",
    "C85_add_day",
    "C85_weekday",
    "C85_parts",
    "C85_made",
    "C85_add_month",
    "C85_add_year",
    "C85_english",
    "C85_english_next",
    "C85_english_zero"
   ],
   "note": "Refuted beyond 28 February 2100: the day after it becomes 29 February 2100, and 1 January 2101 is numbered one too high. The exactness of the LONGREAL products and quotients in oocJulianDay is argued in a comment, not proved."
  },
  {
   "property": "C86",
   "status": "partial",
   "theorems": [
    "C86_parts",
    "C86_made",
    "C86_add_partial",
    "C86_add_refuted",
    "C86_add_time_partial",
    "C86_add_time_refuted",
    "C86_init",
    "C86_now",
    "C86_add_sub",
    "C86_compare",
    "C86_difference",
    "C86_history"
   ],
   "note": "Refuted in full: INTEGER wraps when the last 59 amounts are added to minutes or seconds, and AddTime overflows LONGINT for the last 59 seconds. Scale and Fraction (LONGREAL) are not modelled."
  },
  {
   "property": "C87",
   "status": "partial",
   "theorems": [
    "C87_declare_partial",
    "C87_header_partial",
    "C87_unique",
    "C87_header_unique",
    "C87_distinct_partial",
    "C87_elements_refuted",
    "C87_named_refuted"
   ],
   "note": "Refuted in full: a parameter ARRAY OF ARRAY 4 OF T is declared as an array of pointers, and an open array type with a name whose elements are pointers without a name loses a star (C87_elements_refuted, C87_named_refuted); these are excluded in the partial theorems. Names are taken as defined already; the fields of records are in C43."
  },
  {
   "property": "C88",
   "status": "partial",
   "theorems": [
    "C88_order",
    "C88_struct_partial",
    "C88_cycle",
    "C88_ends_partial",
    "C88_accepts_partial",
    "C88_ends_refuted",
    "C88_accepts_refuted",
    "C88_struct_refuted"
   ],
   "note": "Refuted in full: POINTER TO ARRAY OF RECORD p: P END with the pointer's own name P makes the compiler recurse for ever (C88_ends_refuted); a type-bound procedure that uses a type containing its record is accepted or rejected depending on the order of the type names (C88_accepts_refuted); an array of a record without a name may be defined before the structure of that record (C88_struct_refuted). The text of the items is in C87 and C43."
  },
  {
   "property": "C89",
   "status": "partial",
   "theorems": [
    "C89_length",
    "C89_assign",
    "C89_extract",
    "C89_delete_partial",
    "C89_delete_refuted",
    "C89_insert_partial",
    "C89_replace",
    "C89_append",
    "C89_concat",
    "C89_can_partial",
    "C89_compare",
    "C89_equal",
    "C89_diff",
    "C89_find_next",
    "C89_find_prev",
    "C89_capitalize_partial",
    "C89_capitalize_refuted"
   ],
   "note": "Sums of parameters beyond 2^31-1 are excluded in the _partial theorems. With INTEGER of 4 bytes Delete(s, 5, MAX(INTEGER)) overflows (C89_delete_refuted). CAP masks every character with 5FH, so Capitalize turns digits into control characters and cuts the string at the first blank (C89_capitalize_refuted); for letters it is right (C89_capitalize_partial)."
  },
  {
   "property": "C90",
   "status": "partial",
   "theorems": [
    "C90_form",
    "C90_zero",
    "C90_special",
    "C90_accuracy_partial",
    "C90_exponent_refuted",
    "C90_leading_refuted",
    "C90_denormal_refuted"
   ],
   "note": "Next to a power of ten the rounding carry is not reflected in the exponent, which has been written already, so the text may be ten times too small: 10-2^-21 is written 1.0E+00 (C90_exponent_refuted). The accuracy theorem therefore excludes such numbers. For very small numbers the first digit may be zero (C90_leading_refuted). Denormal numbers are written as zero (C90_denormal_refuted)."
  },
  {
   "property": "C91",
   "status": "partial",
   "theorems": [
    "C91_object_partial",
    "C91_others",
    "C91_rejected_partial",
    "C91_translated_partial",
    "C91_protected",
    "C91_refused_refuted",
    "C91_object_refuted",
    "C91_local_refuted"
   ],
   "note": "A refused interface change deletes the old symbol file, so the same command succeeds when it is repeated (C91_refused_refuted). If another directory comes first on the search path, a stale symbol file may stay beside a new object file (C91_object_refuted); if an equal symbol file is found in a library, none is written beside the object file (C91_local_refuted)."
  },
  {
   "property": "C92",
   "status": "proved",
   "theorems": [
    "C92_roots",
    "C92_modules"
   ],
   "note": "Together with C59 (the collector keeps what is reachable from the roots) and C58, C63."
  },
  {
   "property": "C93",
   "status": "partial",
   "theorems": [
    "C93_roundtrip_partial",
    "C93_close_open_partial",
    "C93_load_partial",
    "C93_any_file",
    "C93_store_again_refuted",
    "C93_crlf_refuted",
    "C93_fonts_refuted",
    "C93_tag_refuted"
   ],
   "note": "Proved for at most 30 font names and 62 kinds of elements, without fonts and without CR LF in ascii pieces. Refuted: fonts do not come back, so a loaded text cannot be stored again (trap); CR LF of an ascii file becomes two line ends; a run after the 31st font traps; Load mistakes a text whose header length ends in the bytes 1 and 240 for one with the old tag. Elements are loaded as aliens (their modules absent); System 3 documents, the backup file of Close and 64-bit LONGINT are not modelled."
  },
  {
   "property": "C94",
   "status": "partial",
   "theorems": [
    "C94_program_partial",
    "C94_status",
    "C94_assemble_partial",
    "C94_stale_refuted",
    "C94_cut_refuted",
    "C94_darwin_refuted"
   ],
   "note": "Proved for builds from the start in any order that respects imports, and for commands that fit. Refuted: a module that gets a further import while its exports stay the same keeps its old symbol file, so the further module is not linked; the list of object files is cut off at 2048 characters without a message; static linking on Darwin does not quote the directory. Shell characters other than blanks and quotes are excluded; the Microsoft compiler is not modelled."
  },
  {
   "property": "C95",
   "status": "partial",
   "theorems": [
    "C95_init",
    "C95_read",
    "C95_reread_partial",
    "C95_fill_partial",
    "C95_rewind",
    "C95_write",
    "C95_drain_partial",
    "C95_rewrite",
    "C95_stream",
    "C95_fill_refuted",
    "C95_overlap_refuted",
    "C95_reread_refuted",
    "C95_drain_refuted"
   ],
   "note": "The full claim fails. Fill of a buffer that still has unread bytes moves them to the beginning but leaves the position behind them, so they are skipped and later reads leave the memory. Reread lets the position go before the beginning. Fill and Drain copy overlapping memory with memcpy when the remaining bytes are more than those consumed or taken, although the head of the module says that moves never overlap."
  },
  {
   "property": "C96",
   "status": "proved",
   "theorems": [
    "C96_intern",
    "C96_write",
    "C96_extract",
    "C96_compare",
    "C96_read"
   ],
   "note": "Buffers are referred to by index, so a reader that has read a string ending exactly at the end of the last buffer is not distinguished from one whose next buffer was appended later; such a reader never touches that buffer. The underlying text and string streams are taken as providing the bytes written to them."
  },
  {
   "property": "C97",
   "status": "partial",
   "theorems": [
    "C97_path_partial",
    "C97_ext_partial",
    "C97_file_partial",
    "C97_addext",
    "C97_addpath",
    "C97_build",
    "C97_path_back_partial",
    "C97_ext_back_partial",
    "C97_path_refuted",
    "C97_dot_refuted",
    "C97_user_refuted",
    "C97_home_refuted",
    "C97_expand_partial"
   ],
   "note": "Proved for arrays with room for the whole name; C97_path_refuted shows that an array with room for the file name only gets nothing, because the name is truncated before the path is deleted. C97_dot_refuted: a name that ends with a period loses it on the way through GetExt and AddExt. C97_user_refuted and C97_home_refuted: the user is compared with the first 31 characters of a line, so a named user is never found and the current user's directory is taken, while the empty line read at the end of the file counts as the user with the empty name, so that a tilde alone is not expanded; C97_expand_partial covers names without a tilde."
  },
  {
   "property": "C98",
   "status": "partial",
   "theorems": [
    "C98_match_partial",
    "C98_empty_refuted",
    "C98_bounds_refuted",
    "C98_behind_refuted"
   ],
   "note": "C98_match_partial: right for all patterns without question marks. With question marks the claim is false: C98_empty_refuted (a question mark followed by a star is found in the empty string), C98_bounds_refuted (index trap), C98_behind_refuted (the result depends on the characters behind the end)."
  },
  {
   "property": "C99",
   "status": "partial",
   "theorems": [
    "C99_stream_partial",
    "C99_exists",
    "C99_seed_refuted",
    "C99_unseeded_refuted",
    "C99_real_refuted",
    "C99_range_refuted"
   ],
   "note": "C99_stream_partial: right for every state set with SetSeeds; C99_exists: every state has a sequence. C99_seed_refuted: SetSeed overflows a LONGINT for every seed, which has no defined meaning in C; C99_unseeded_refuted: so does the first call without a seed. C99_real_refuted: Real is negative for half of the numbers. C99_range_refuted: IntRange copies two bytes where four were meant and multiplies without the long type, so its result is out of range or undefined."
  },
  {
   "property": "C100",
   "status": "partial",
   "theorems": [
    "C100_text_partial",
    "C100_trunc_refuted",
    "C100_close_refuted"
   ],
   "note": "C100_text_partial: right for all histories in which no truncation gives up a block of 512 bytes. C100_trunc_refuted: after such a truncation the counter is one less than the number of buffers kept, so the remaining bytes are read as zeros from a new buffer. C100_close_refuted: if the counter became 0, closing does not release the old buffer, and what is written afterwards is not what is read."
  },
  {
   "property": "C101",
   "status": "partial",
   "theorems": [
    "C101_history_partial",
    "C101_forever_partial",
    "C101_terminate_partial",
    "C101_stop_partial",
    "C101_release_partial",
    "C101_attach",
    "C101_depend_partial",
    "C101_cycle_refuted",
    "C101_stopped_refuted",
    "C101_leak_refuted"
   ],
   "note": "Proved for dependencies without cycles: all calls return, counts, keys, propagation of all changes to exactly the dependants, permanence of termination. Refuted: a resource may depend on itself and then notifications never return; a terminated resource made dependent afterwards is reported as stopped; an unreferenced dependant never gives its key back."
  },
  {
   "property": "C102",
   "status": "partial",
   "theorems": [
    "C102_map",
    "C102_seek",
    "C102_returns_partial",
    "C102_add_partial",
    "C102_unique",
    "C102_add_refuted",
    "C102_remove_refuted",
    "C102_cycle_refuted"
   ],
   "note": "Proved: all histories behave like the map, Seek through forwards finds the first on the way, calls return if the chain ends, Add makes a new identifier visible, Unique counts up to 2^31-1. Refuted: Add through an object that forwards and has the identifier itself leaves the old discipline visible; Remove can uncover another one; circles of forwards are accepted and then nothing returns."
  },
  {
   "property": "C103",
   "status": "partial",
   "theorems": [
    "C103_sub",
    "C103_sub_exists",
    "C103_add_partial",
    "C103_add_exists",
    "C103_add_sub",
    "C103_compare",
    "C103_set_partial",
    "C103_negative_refuted",
    "C103_many_refuted",
    "C103_add_refuted"
   ],
   "note": "Proved: differences exact and in range, sums exact, sum minus part, comparison, setting with microseconds in range (also negative seconds). Refuted for all inputs of the branch: negative microseconds are added instead of subtracted; a million microseconds or more give negative seconds and one second too much, or an overflow. Refuted: a sum with exactly one million microseconds is not carried and compares as earlier than the same time. Seen but outside the model: GetValue of a time of another scale converts an uninitialised variable instead of its argument."
  },
  {
   "property": "C104",
   "status": "partial",
   "theorems": [
    "C104_int_wire",
    "C104_set_wire",
    "C104_exchange_partial",
    "C104_long_text",
    "C104_short",
    "C104_interface_refuted",
    "C104_const_refuted",
    "C104_bad_length",
    "C104_detach"
   ],
   "note": "Missing: errors of devices and forwarding to other streams; ReadChar, ReadInteger and ReadReal are the same code as the modelled ones. Refuted: Seek has a value parameter, so a stream with an attached interface makes every call follow a NIL pointer. Refuted: a constant string of less than 512 characters that contains 0X is cut at it, although its full length is sent. Real numbers travel in the byte order of the machine, unlike integers."
  },
  {
   "property": "C105",
   "status": "partial",
   "theorems": [
    "C105_format_partial",
    "C105_zero_refuted",
    "C105_only_numerals",
    "C105_empty",
    "C105_value",
    "C105_length"
   ],
   "note": "Proved for all numerals other than zero, for acceptance of numerals only, for empty strings for the value of every accepted string and for the length of the shortest numeral of every integer. Refuted for all numerals of zero: the start index stays -1, so that with nine characters in front of the terminator the code reads before the string, and with more the zero is reported as out of range. Strings are shorter than 2^15 characters; LONGINT has 32 bits (with 64 bits the limits are still those of 32 bits)."
  },
  {
   "property": "C106",
   "status": "partial",
   "theorems": [
    "C106_length",
    "C106_append",
    "C106_extract_partial",
    "C106_extract_refuted",
    "C106_replace",
    "C106_delete",
    "C106_cap_partial",
    "C106_cap_refuted",
    "C106_insert",
    "C106_pos"
   ],
   "note": "Proved: Length, Insert, Append, Delete, Replace and Pos for all strings and arrays; Extract unless the number of characters is exactly the size of the array; Cap for strings of letters. Refuted: Extract of exactly as many characters as the array has elements traps. Refuted: Cap keeps only the bits of 5FH, so that a blank ends the string and digits become control characters."
  },
  {
   "property": "C107",
   "status": "partial",
   "theorems": [
    "C107_byte",
    "C107_count",
    "C107_whole_partial",
    "C107_decipher",
    "C107_short_refuted",
    "C107_counter_refuted"
   ],
   "note": "Missing: errors of the output stream. Refuted for all texts: without a number, a key that is too short is not reported, the text is cut and one byte of it is lost. Refuted: without a number the counter still runs down and overflows, at once if the lowest number is given."
  }
 ]
}