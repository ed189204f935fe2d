# Design: a Rocq model of parts of the ULAM compiler

Source: `/repo` (elenasa/ULAM, C++). Prover: Coq/Rocq 8.16.1, standard library only.
Files are in `rocq/theories`, logical prefix `Verif`.

## Conventions

* One model file per area (`XModel.v`), a specification that does not use the model's helpers
  (`XSpec.v` or the spec section at the top of the theorem file), proofs (`XProofs.v`) and the final
  statements with `Example`s and `Print Assumptions` (`XTheorems.v`).
* Every model definition carries a comment with the file and lines in `/repo` that it transcribes.
* Bytes are `N` below 256, text is `list N`. Machine integers are `N`/`Z` with explicit reductions modulo 2^n.
* An `assert` failure, undefined behaviour or non-termination of the C++ code is a separate outcome (`None`, or
  an explicit constructor); it is never merged with a normal result.
* Where the code violates a property the theorem is named `..._refuted` and exhibits a concrete witness, and
  a positive theorem states the exact region where the property holds.

## Trusted base

* The Coq kernel (8.16.1, `coqc`; the compiled files also pass `coqchk -o`). Some finite checks use `vm_compute`, so its
  evaluator is trusted with the kernel. No axioms: see the last section. (`coqchk -o` lists axioms of `Coq.ssr.ssrunder`,
  which the standard library loads with `Lia`; no theorem here depends on them.)
* The transcription from C++ to Gallina by reading.
* Functions of the MFM simulator library that ULAM calls but which are not in `/repo` (`Util.h`, `CastOps.h`,
  `BitVector.h`): they are given concrete definitions in the model according to their documented meaning, and
  are marked `EXTERNAL` in the comments.
* The statements: each specification is in a `XSpec.v` file or at the top of the theorem file and uses no helper of the model
  beyond the types of its inputs and outputs; an `Example` after the theorems shows a non-trivial case that meets the
  hypotheses.
* C++ standard library streams, strings, maps and vectors are modelled by lists and functions.

## Properties

Status, the files of the theorems, and what is proved or missing. `MANIFEST.json` has the same with the exact theorem names.

| id | property | status | files | note |
|---|---|---|---|---|
| C01 | Leximited strings are self-delimiting | partial | LeximitedTheorems.v | Round trip with arbitrary continuation, prefix-freeness and unique concatenation for strings shorter than 2^32 bytes; a string of 2^32 or more bytes is refuted (length truncated to u32). |
| C02 | Leximited numbers are injective and decodable | proved | LeximitedTheorems.v | All four number encoders, every value. |
| C03 | HexEscape is invertible and emits only visible ASCII | proved | HexEscapeTheorems.v | Every byte string. |
| C04 | 64-bit constants are emitted exactly | proved | HexEscapeTheorems.v | Every 64-bit pattern, signed and unsigned. |
| C05 | Integer literals convert exactly or are rejected | partial | Strto64Theorems.v | exact value / overflow characterisation proved for signed and unsigned literals; refuted for unsigned literals with a minus sign, radix prefixes without digits and high bytes. |
| C06 | Sized literal conversion enforces the declared size | partial | Strto64Theorems.v | every representable value is accepted; the converse is refuted, and unsigned sizes abort. |
| C07 | String interning is stable, injective and lossless | proved | StringPoolTheorems.v | Histories shorter than 2^32. |
| C08 | User string table: index points at length, bytes, NUL | proved | StringPoolTheorems.v | Strings of at most 255 bytes (the limit the lexer enforces); total below 2^32. |
| C09 | Diagnostic/quoted rendering of strings is unambiguous | partial | StringPoolTheorems.v | Refuted as stated (two different strings rendered alike); injectivity proved for strings of printable bytes and bytes 7..13. |
| C10 | Source positions count lines and columns correctly | partial | SourceStreamTheorems.v | exact for every text that fits the 16-bit line and byte fields, positions strictly increase; refuted beyond 65535 lines or 65535 bytes per line. |
| C11 | Source stream delivers exactly the nested file contents | partial | SourceStreamTheorems.v | byte delivery proved for all histories of reads, one-byte pushbacks and loads of files that are not open; positions proved under one outermost file and no load during pushback; refuted for loading an open file and for positions after an empty file. |
| C12 | Operators are tokenized by longest match | partial | LexerTheorems.v | holds unless a comment starts, a star is followed by a slash, two dots are followed by no third, << or >> ends the input, or a NUL follows; the last three refuted (C12_longest_operator_refuted). |
| C13 | Comments and white space do not change the token sequence | partial | LexerTheorems.v | any mix of white space and comments before a token, and put in between tokens where the previous token stopped at white space, changes nothing; a token depends on at most one byte past it. Refuted for structured-comment corner cases (C13_skipped_refuted). |
| C14 | Identifiers and keywords are classified uniquely | partial | LexerWords.v | all words but one; refuted for the word StructuredComment, which is not reserved but is refused. |
| C15 | Stored fields read back exactly | proved | AtomTheorems.v | All positions, widths up to 64, values and contents; immediates included. BitVector (MFM library) is external and modelled by its documented effect. |
| C16 | Writing one field leaves all other bits of the atom alone | proved | AtomTheorems.v | Fields, scalar stores and packed array stores. |
| C17 | Packed arrays: item i is where indexing says it is | partial | AtomTheorems.v | proved for items and whole arrays through the atom operations; refuted for whole-array loads of two 33..35-bit items, for copies of quark arrays (justification mismatch) and for item stores to stack arrays of 65..71 bits (whole slot overwritten). |
| C18 | Default array values replicate the item default | proved | AtomTheorems.v | Item default below 2^w (what the caller passes); packed and 8192-bit forms. |
| C19 | Calls and returns restore the caller's frame | proved | CallStackTheorems.v | For code of any nesting that stores, pushes, pops and calls. The vector growing to 2^31 values counts as out of memory. |
| C20 | Frame slots behave as independent variables | proved | CallStackTheorems.v | Slots over the whole s32 range; assignment through a pointer for values assigned to slots holding data. |
| C21 | Event-window coordinates and site numbers correspond one to one | proved | EventWindowTheorems.v | Every coordinate of the 9x9 square and every index. The header comment's numbering is shown wrong (C21_header_comment_refuted). |
| C22 | The event window accepts exactly the sites at Manhattan distance at most 4 | partial | EventWindowTheorems.v | The bounds check as written is refuted: isValidSite tests \|x+y\|, so (4,-4) passes (C22_bounds_check_refuted). Proved: stores are accepted exactly at distance at most 4, loads give the last store, every site of the window passes the check. Not covered: setSiteElementType, the live flag. |
| C23 | Casts the compiler calls safe never change the value | proved | PrimTheorems.v | Scalar Int, Unsigned, Unary, Bool and Bits of 1..64 bits, non-reference; the MFM conversions are external and modelled by their effect (read number, clamp, write). For a Bits destination 'same value' is the same bits. Void, String and class sources are not covered. |
| C24 | maxof and minof are the exact limits of each type | proved | PrimTheorems.v | Int, Unsigned, Unary, Bool of 1..64 bits (Bits has no maxof). |
| C25 | Result types of arithmetic hold every result | partial | ArithTheorems.v | Refuted for Unsigned minus Unsigned, the least Int divided by -1, Unsigned(32)/Int(40) and Int(40)%Unsigned(32) (C25_result_type_refuted). Proved for + and *, for - with an Int operand, and for / and % outside those cases. Quark operands are not modelled. |
| C26 | Shift result sizes are valid type sizes | partial | ArithTheorems.v | Refuted: 1<<31 makes a negative size and 1<<32 is undefined (C26_shift_left_size_refuted). Proved for a distance of at most 30 bits or at least the word size. Primitive operands only. |
| C27 | Distinct types get distinct mangled names | proved | MangleTheorems.v | Complete types (the code names an array of unknown size as a scalar, C27_unknown_array_size_refuted); plain and class types, with arbitrary continuation. |
| C28 | Overloads of a function get distinct C++ names | partial | MangleParams.v MangleTheorems.v | C28_function_names_distinct for parameters of plain types, classes and template instances whose arguments are numbers or arrays of numbers; C28_strings_partial adds user strings that are not empty. C28_empty_string_refuted: an empty string among the arguments leaves no trace, and two overloads with template instances and Bool parameters get one name. Class constants as arguments collide too (C54_class_constants_refuted). |
| C29 | Type keys are strictly ordered consistently with equality | proved | TypeTableTheorems.v | strict total order consistent with equality; a std::map lookup finds exactly the entry with an equal key. |
| C30 | Type registration returns one index per known type | partial | TypeTableTheorems.v | index denotes its key, different keys keep apart, an index keeps its key unless an operation sets it, same index again across any number of registrations. Refuted: a holder made earlier and completed later takes the type's place (C30_same_index_refuted); a non-class key carrying a class index gets a new index each time (C30_class_index_refuted). |
| C31 | Type alias resolution finds the representative | partial | TypeTableTheorems.v | whatever is resolved is the root of the chain and chains of at most six links resolve; longer chains and cycles abort (refuted). |
| C32 | Ancestor traversal visits every ancestor exactly once | proved | FamilyTheorems.v | every base graph whose class numbers are 16-bit, cyclic ones included; also the order (breadth first by distance, depth first). |
| C33 | Subclass test equals reachability | proved | FamilyTheorems.v | for complete classes; for classes still incomplete the test also says yes to types it cannot tell apart (C33_incomplete_refuted). The nearest base and the is-test's bit vector are covered too. |
| C34 | break and continue target the nearest enclosing statement | partial | LoopTheorems.v | targets, restoring and the meaning of the generated code hold in full, and every goto has its label; 'a label is emitted only if used' holds in builds without assertions and is refuted for the default build (C34_unused_label_refuted). |
| C35 | Element type numbers are unique and never reserved | proved | ElementTypeTheorems.v | any sequence of requests; capacity 65534 classes besides Empty. C35_exhausted: past the capacity the search never ends (the assertion meant to stop it allows one call more). |
| C36 | No compile error is lost or repeated | proved | ErrHandlerTheorems.v | every sequence of events; counts below 2^32. A line is written once, to the output in force when it first comes up, provided an output is set. |
| C37 | Class data members and base parts never overlap | proved | LayoutTheorems.v | classes that are not unions; a repeated direct base is refused. |
| C38 | Union members share the front and never overlap the bases | partial | LayoutTheorems.v | the members of a union start together, but the bases start there too, so they overlap the members (C38_refuted). |
| C39 | Virtual tables: every inherited slot has its own place | proved | VTableTheorems.v | every acyclic hierarchy; also that no assertion of the table code fails once the bases are done. |
| C40 | Overload resolution picks a unique best match or reports ambiguity | partial | OverloadTheorems.v | C40_class settles one class completely (selected iff the only safe candidate or the only one of the same kinds of types). C40_one_class does so for a whole call when only one class of the hierarchy has functions of that name. C40_never_null: never a count of one without a function, whatever is unknown. C40_calls_partial: what any selected function satisfies in an arbitrary hierarchy. Not true in general: C40_ambiguity_refuted (an ambiguity in a derived class is forgotten when a base has one match) and C40_exact_refuted (an exact match in a base may be passed over for the one it overrides when another base is pending). The type relations of one parameter and one argument are parameters; unknown (hazy) comparisons are modelled, and the positive theorems assume none remain. |
| C41 | Expression parsing follows the grammar's precedence and associativity | partial | ExprTheorems.v | Every tree of identifiers, numbers, strings, unary, binary, postfix, assignment, question-colon, index, call, member, of and cast nodes is read back from its minimal printing; every phrase of the grammar (including is/as, local, of-a-type, indices after members) is read as its tree unless it is of one of three kinds, each refuted by a witness: '(local.x)' fails an assertion, 'x is Foo & y' loses the ampersand to the type, '(Int.sizeof ? a : b = c)' is refused. A type descriptor is one token; member selection by base type, named constants of types, reference casts and instanceof constructor calls are not modelled. |
| C42 | The expression parser never builds an operator without operands | partial | ExprTheorems.v | The code violates the property: 'a * * b', 'a . . . b' and 'a[]' give nodes without an operand and no error, and 'a . . . . .' deletes a node twice (refuted by witnesses). Proved for every token sequence: only the left operand of an operator of levels & to *, the object of a member selection or of-operator, and an index can be missing; and where operands and operators alternate and no error is reported nothing is missing. |
| C43 | Symbol tables behave as finite maps | proved | SymTableTheorems.v | All of SymbolTable.cpp except the type alias update inside mergeATableHere; Symbol::clone is modelled as a same-name same-data copy. C43_map: every accepted call is the finite map operation. C43_rejected: which calls an assert refuses, tables unchanged. C43_owners / C43_no_dangling / C43_no_leak: ownership. C43_lookup / C43_listing: lookups, merges, size and order of names for well named histories. Findings: C43_assign_refuted (operator= does not clear, so it is refused half way or on self-assignment), C43_leak_refuted (a rename onto a taken name loses the other symbol), C43_self_replace_refuted (replace by itself deletes the entry's symbol), C43_silent_refuted (replace of an absent symbol is silently dropped). |
| C44 | A .ulam file name is recognised exactly by its suffix | partial | HexEscapeTheorems.v | Accepted names are ulam file names; the converse holds except for names containing .ulam before the end (refuted). |
| C45 | Type comparison is an equivalence on complete types | proved | TypeTableTheorems.v | both comparisons decide identity on complete types, are symmetric on all types, never answer don't-know on complete types. |
| C46 | Array size limits cannot be bypassed | partial | TypeTableTheorems.v | holds when the bit total fits in 32 bits; characterised exactly modulo 2^32; refuted for Int(32) x[2^27] (C46_limit_refuted). |
| C47 | Operator overload names are unique and reversible | proved | LexerWords.v | all overloadable operators, and how the lexer reads operator+op. |
| C48 | Unary values depend only on the number of ones | proved | PrimTheorems.v | Every size and pattern; conversions external. |
| C49 | Every string index the compiler calls valid denotes a string | partial | StringPoolTheorems.v | The code violates the property: indexes between entries are called valid (refuted by a witness). Registered indexes are proved valid; an accepted index below the number of entries denotes a string, and index 0 is never accepted. |
| C50 | Source text shown for a position is the text of that line | partial | SourceStreamTheorems.v | proved for every complete line of a file read from start (single file, arbitrary contents); refuted for a last line without newline and for files loaded twice. Missing: nested loads. |
| C51 | Array subscripts outside the array are refused | partial | AtomTheorems.v | Refuted as stated (negative loads, stores past the end of a member, wrap-around of the 8-bit position); the refused cases are proved. |
| C52 | Literals are accepted exactly by the types that can hold them | proved | PrimTheorems.v | Constants of type Int, Unsigned and Unary to those types; conversions and comparisons of the MFM library are external. |
| C53 | Constant arithmetic is folded exactly | proved | ArithTheorems.v | For constants that fit the type of the operation, which the compiler checks (C23, C52). The library's saturating operations are external: assumed exact, then brought into range. |
| C54 | Template instances with different arguments are told apart | partial | MangleStrings.v MangleTheorems.v | Proved for numbers, arrays of numbers and user strings. Refuted for class constants (getValueAsHexString reads overlapping nybbles) and for arrays of strings (an empty string leaves no trace). |
| C55 | A string literal is the bytes it denotes | proved | LexerLiterals.v | both directions for double quotes, one direction for single quotes. |
| C56 | A number literal is one token with the right sign | partial | LexerLiterals.v | every number is read right, and nothing else is but for bare prefixes 0x and 0b, which are number tokens (refuted). |
| C57 | Virtual calls run the most specific override | partial | VTableTheorems.v | holds for functions with one origin in the class's hierarchy; refuted for several origins (C57_refuted: the slot of a second origin keeps the origin's function although it is overridden). |
| C58 | The evaluator and the generated code run the same statements | partial | LoopTheorems.v | proved for bodies without a continue of a for loop and without statements after a switch break; refuted for each of the two (C58_for_continue_refuted, C58_switch_break_refuted). |
| C59 | A compilation that reports an error fails | partial | ErrDriverTheorems.v | the result of compileFiles is right (C59_result); the process exit status is right while the number returned is below 256 (C59_exit_partial) and refuted otherwise (C59_exit_refuted: 256 errors in a file, or 128 errors and one more file, exit with status 0). |
| C60 | The expression parser ends on every token sequence | proved | ExprTheorems.v | For every token sequence of the model; unmodelled parts answer Unmod. The C++ recursion depth (stack) is not modelled. |
| C61 | The expression parser drops no token without saying so | partial | ExprTheorems.v | The code violates the property: f(a * ) is read as f(), f(a, , b) as f(a, b), (Int.sizeof x) as x, all without an error (refuted by witnesses). Proved where operands and operators alternate. |
| C62 | Class sizes are found and true | partial | ClassSizeTheorems.v | The code violates the property: a union whose member class is also a base loses the class's size as a base, so its subclasses are never sized if the union comes first (C62_refuted); a containment chain deeper than 100 in an adverse order is not finished (C62_depth_refuted). Proved for all programs of regular classes: sizes found without errors are exact and within limits (C62_exact); circular containment is never sized (C62_never); otherwise pass n has sized every class of depth below n in any table order (C62_sized_partial). Templates are not modelled. |
| C63 | Comparisons of constants are true | proved | FoldTheorems.v | The C++ helpers _BinOpCompare... are external (not in the repository) and assumed to compare the numbers the bits stand for. C63_numbers_compare_truly gives the exact condition for the error. |
| C64 | Bit operations on constants act on the right bits | partial | FoldTheorems.v FoldUnknown.v | The code violates the property: the distance of >> is cut to the number of bits of the left operand, so 5 in Bits(3) >> 8 folds to 5 (refuted by a witness). >> is proved for distances below 2^n and the word; << for distances below the word and distance types for which the size is defined (see C26); the rest without bound. The external helpers are assumed to act on the low len bits. |
| C65 | Evaluator and generated code agree on order of evaluation and on conditions | partial | OrderTheorems.v | Agreement proved for every program whose neighbouring operands do not interfere and whose conditions are single bits (C65_same_end, C65_same_value, with recursive functions and loops); short circuits proved without those conditions. Refuted outside: x + (x = 5), a[i] = (i = 2), f(x = 1, x = 2) give different results, Bool(3) 001 takes different branches (exactly when: C65_branch_agrees), && of more than 32 bits stops the evaluator. Operators are arbitrary functions shared by both sides; reference parameters, classes and early return are outside this model. |
| C66 | Array subscripts reach the item they name | partial | IndexTheorems.v | the first half holds: every item is accepted everywhere and reached (C66_read_item, C66_store_item for indexes of at most 32 bits, C66_gen_item, C66_constant_item, C66_string_byte), and on Unsigned indexes the refusals are exact (C66_read_unsigned, C66_gen_unsigned). The second half is refuted with witnesses: negative reads, reads at 2^32, stores beyond the array (exact condition in C66_store_slots_exact and C66_store_word_exact), negative Int(n) in generated code (exact condition in C66_gen_signed_exact), constant index equal to the size or -2, wide store index. |
| C67 | Class default values place every initial value where the layout says | proved | DefaultTheorems.v | Existence, uniqueness (C67_determined) and description of the default value for every class of a well-formed program (the record `program`: complete, acyclic, sizes fit, initialisers that check). Unions with bases are outside (see C38), so is a data member of type Atom with an initialiser (the code ignores it). |
| C69 | Array initialiser lists fill every item | partial | DefaultTheorems.v | proved for non-empty lists, for lists that are too long, and for named constants with an empty list; refuted with a witness for a variable or data member of a class array with an empty list, whose computed value is all zero (C69_empty_list_refuted). Named constant arrays as class-array members inside lists are not modelled. |
| C70 | Class initialiser lists change exactly the members they name | proved | DefaultTheorems.v | Soundness, acceptance, uniqueness and both rejections, for all lists. Names are already resolved to the declaring class and member; unions with bases are outside (see C38). |
| C68 | Values written as text denote the same bits | partial | ValueTextTheorems.v | proved for every value in the generated code (C68_class_value, C68_array_value, C68_list_value, C68_packed_value, C68_default, C68_default_quark) and for map entries of types that are not elements (C68_map_value, C68_map_injective). Refuted with a witness for map entries of element type (C68_map_element_refuted): the length used is that of the data bits while the value starts with the 25 bits of the header, so the last bits are cut off; C68_map_element says what is there. Values of String type are not covered. |
| C71 | A name stands for the innermost visible declaration | partial | ScopeTheorems.v | C71_identifier: an identifier means exactly what it denotes, if no constant of its name comes later in the blocks around it (then C71_later_constant_refuted: an outer variable in scope is refused). C71_identifier_partial without that hypothesis says what each outcome means. C71_one_declaration, C71_member (after a dot), C71_class_or_ancestor, C71_unhidden, C71_most_specific_single (one base each). C71_most_specific_refuted: the walk is depth first, so in a diamond the declaration of the shared base is found though a class below it declares the name again. C71_shadow: exactly the declaring ancestors are reported. C71_typedef: never ambiguous; C71_typedef_ambiguity_refuted: kinvec[0] is taken in each turn of the loop, so two bases with different typedefs give no message. C71_constants_only for the mode with constants only. Classes are complete (no hazy kin). |
| C72 | Statements are parsed as they are written | partial | StmtTheorems.v | refuted in part. Proved: every body of the grammar is read as its tree (C72_reads_partial: expressions as in C41, as only as the last operator of a condition), has one tree (C72_unique), what is accepted without an error and without a lost expression is a body of the grammar with that tree (C72_only_partial: the expressions are those the expression parser reads, not those of the grammar, C42 and C61), the parser ends on every input (C72_ends), which runs the first body written whose label holds (C72_which). Refuted: `f(a) * ;` disappears and `return f() * ;` returns nothing without an error (C72_lost_refuted); an otherwise without a body makes the compiler use a deleted node (C72_fault_refuted); after `x as T;` the next condition is taken for an as (C72_as_refuted); `for(++i;;)` and `Int a = b = 3;` are refused though published (C72_published_refuted). |
| C73 | Clashing functions are reported | partial | DupFuncTheorems.v | C73_exact_partial says exactly what is accepted; C73_plain_duplicates, C73_quiet and C73_parsing are full. Missing, since false of the code: a duplicate after a virtual function is not reported (C73_virtual_refuted). Template arguments are numbers, as in C28. |
| C74 | An explicit cast gives the nearest value of the new type, in the evaluator and in generated code alike | partial | CastTheorems.v | primitive scalars of 1 to 64 bits that are not references; C74_string_refuted shows the accepted cast that the evaluator cannot do. Casts of classes, references and values over 64 bits are not covered. The generated call's arguments are not modelled, only which function it names. |
| C75 | use, load and ulam directives are replaced by what they stand for | partial | PreparseTheorems.v | refuted in part. Proved for files that are sequences of tokens and well-formed directives with version numbers below 2^32: what is read is exactly the program the file stands for (C75_exact_partial), unique (C75_one_program), circular loads never end (C75_cycle), pushback (C75_unread, any tokens). Refuted with witnesses outside: C75_version_refuted, C75_name_refuted, C75_interrupted_refuted, C75_fault_refuted, C75_first_refuted, C75_unread_refuted. A file is its list of tokens; the bytes are C11-C14. |
| C76 | An assignment that computes changes its left side, and only that, to the result of its operation | partial | EqualOpTheorems.v | proved for numbers (C76_arith, C76_step: any operand kinds, any sizes, divisor not 0), for & \| ^ (C76_bits, C76_bits_refused), and for shifts by distances below 2^n and the word (C76_shift_partial; C76_shift_by says what happens otherwise). Refuted: the evaluator cuts the distance of <<= and >>= to the size of the left side while the generated code does not (C76_shift_refuted, C76_same_shift_partial gives the exact condition), and x /= 0, x %= 0 are not caught (C76_zero_refuted). The left side is a scalar of a primitive type, at a place in one cell; arrays are outside. The arithmetic helpers are external. |
| C77 | is and as answer by the object's own class and its ancestors | partial | IsAsTheorems.v | refuted in part. 'is' holds in full in the evaluator and the generated code (C77_is, C77_generated, C77_agree, C77_getrelpos; an Atom asked for a quark calls a simulator method that is not in the repository), and so do the refusals (C77_as_refusal). The evaluator's 'as' is proved for quarks and elements (C77_as_partial) and where the variable's position is right (C77_as_position_partial). Refuted: t as T is false for a transient of class T (C77_as_transient_refuted); nested as on an Atom, and as to an element from a base view, give a wrong bit position (C77_as_position_refuted). C77_as_acceptance: every accepted pair of kinds can happen. |
| C78 | Registration numbers identify classes | proved | IsAsTheorems.v | every sequence of requests up to the 1000 numbers of the registry. |
| C79 | A cast between classes reaches the part asked for, or is refused | partial | ClassCastTheorems.v | refuted in part. Acceptance: implicit casts exactly (C79_implicit_sound, C79_implicit_complete, C79_implicit_atom), explicit casts between classes exactly (C79_explicit_class, C79_explicit_possible; refused ones C79_explicit_refused_partial), Atoms (C79_explicit_to_atom, C79_explicit_from_atom). Results: evaluator on objects of the class asked for (C79_evaluator_partial, C79_evaluator_atom), generated code on every object (C79_generated, C79_generated_value, C79_generated_atom). Refuted: a constant Atom can become a changeable element reference (C79_const_refuted); the evaluator lets wrong casts downwards pass (C79_evaluator_refuted, C79_evaluator_atom_refuted); the test generated before a cast downwards never fails, only the position lookup does (C79_guard_refuted). C79_evaluator_refuses: an object in storage of its own class is not cast to a class it is not of. |
| C80 | A base taken out of a value has every bit from the value, each in its place | partial | ClassExtractTheorems.v | proved for every hierarchy in which the new value's class is no union and no own part is longer than the evaluator's maximum (C80_extract, C80_cast). Refuted for a union with a base: its own bits are overwritten by its base's (C80_union_refuted). |
| C81 | Variables in scope at once have places of their own in the frame | partial | FrameTheorems.v | proved for every function whose slots, doubled once per choice on the way to a declaration, stay below 2^31 (C81_apart_partial). The growth clause is refuted: each ? : in sequence doubles the frame, so n of them make it at least 2^n slots (C81_doubling_refuted), and after 32 a variable gets the slot of another one in scope, in a frame of 2^31 slots (C81_wrap_refuted). |
| C82 | A function finds its own arguments in its frame | proved | FrameTheorems.v | every function and stack that fit into 2^31 slots (running out of memory is a result of its own). The slot recorded for super is not the object's, but nothing reads it (C82_super_refuted). |
| C83 | A reference stands for what it was bound to | partial | RefTheorems.v | proved for every program in which no function that declares references is called while it is active (C83_partial). Refuted with recursion: the pointer is kept with the symbol, not in the frame, so that after an inner call the outer reference stands for what the inner one was bound to (C83_recursion_refuted). |
| C84 | Nothing constant is changed | partial | StoreTheorems.v | the labels storeIntoAble and referenceAble. C84_selection: members, items and base classes of a name are permitted exactly when the name is not constant. C84_checked_partial, C84_evaluated_partial, C84_generated_partial: any expression, provided the branches of ?: and the operands of .atomof are themselves storeIntoAble (and, for the generated code, without casts to references). Refuted beyond: (c ? m : b) = 1 changes a constant parameter m, (c ? r : cr) = 1 writes through a constant reference, (c ? K[i] : b) = 1 changes a named constant in the evaluator, ((Int&) m) = 1 in generated code, ce.atomof = a. |
| C85 | An accepted store reaches what its left side stands for | partial | StoreTheorems.v | C85_stored_partial covers variables, selections, ?: and casts to references whose operands are storeIntoAble: both back ends store into the name reached. Refuted: (a = b) = c is accepted, the evaluator stores into a temporary and the code generator aborts; a value in a branch of ?: is accepted. |
| C86 | A returned reference stands for something that is still there | partial | RetRefTheorems.v | C86_call_partial and C86_partial: for functions that name none of their value parameters by a reference (and no recursion of functions with references, C83) the caller gets exactly the place, or the evaluator stops because the place is a variable of the function. C86_refuted: Int& g(Int x) { return x; } is not refused, and the pointer, relative to the frame of g, is used relative to the caller's frame: g(5) = 7 changes a parameter of the caller. Not covered: pointers into classes and the event window, self, the check _IsLocal in generated code (external). |
| C87 | A function gives back a value of its type, the number that was returned, or it is refused | partial | RetValTheorems.v | C87_value, C87_literal, C87_literal_value, C87_exact: the type and number of what is returned, for all primitive types (exact acceptance for Int/Unsigned/Unary). C87_void and C87_missing: the refusals. C87_always_partial: bodies with no way through but by a return end by one in generated code, and in the evaluator on the bodies of C58. C87_path_refuted / C87_unreached_refuted: the compiler only asks for one return statement somewhere in the body, so a function with a type is accepted that comes to its end with nothing returned. |
| C88 | A UMod counter goes through its values in a circle, and its comparisons follow the circle | partial | UModTheorems.v | counting and the order without a dead band are proved (C88_cycle_partial below the greatest value, C88_order, C88_ahead_partial for three or more bits); refuted: the greatest value is never come to and does not go on to 0, two bits, isComparable is always true (the dead band is not told), postfix ++ gives the new value. The generated C++ of the class is left out: the transcription is of the ulam source with the types that the compiler gives its expressions (StdNumModel). |
| C89 | Random choices among sites and keys are fair | partial | PickTheorems.v | linear categories of WindowScanner are fair for all weights whose sum is below 2^32 (C89_scanner), hits of WindowServices up to 255 in all, counts of SelectorServices up to 65535, and the extreme value is always right (C89_extreme); refuted: categories for the greatest weight choose losers that come later, keep the greatest weight of an earlier scan, sums that saturate, ties after a new greatest value. random.create is taken as uniform (library code). |
| C90 | Random ranges, odds and timers have the chances that they are documented with | partial | RandTheorems.v | between for fewer than 2^31 numbers, odds, timers whose level fits the counter and whose last interval fits 32 bits (the average is stated as drift: each count takes one off the mean number of counts to come); refuted: greater ranges, levels that do not fit. random.create is taken as uniform (library code). |
| C91 | A stored checksum betrays corrupted bit storage | proved | CrcTheorems.v | computeChecksum is the bitwise check for all storages and lengths (C91_crc), updates (C91_update), the test (C91_valid), detection (C91_detect, C91_corrupt), and the limit of short checksums (C91_short_refuted). Reading and writing bits of the storage is MFM library code, taken as described in CrcModel; lengths are below 2^32 - 8. |
| C92 | Byte streams are queues, and printed numbers read back | partial | ByteTheorems.v | the queue, reset, reread, printing of numbers and copying are proved for all inputs; refuted: rewrite alone, the count that writeBytes returns when the writer is full, base 36 (C92_base). Not modelled: printf and the printing of UrSelf (native), loggers. |
| C93 | Names in generated code never clash | proved | GenNameTheorems.v | C93_distinct (the name determines the thing named), C93_tmp and C93_user (the test for temporaries). Which names are declared in which C++ scope is left to C71 (scopes) and C28 (overloads). |
| C94 | A conditional expression has the value of the branch its condition chooses | partial | QColonTheorems.v | the value of an accepted expression, exact acceptance and the narrowest type for numeric branches, Bits branches, the condition and folding are proved for all scalar primitive types. Refuted: two Unary branches of different sizes are refused although the wider Unary holds both, and a Bool branch beside a number or a Bool of another size fails an assertion. References, arrays, strings and classes as branches and the generated code are not modelled. |
| C95 | Comparisons of class operands call the right operator function | partial | OpDispatchTheorems.v | names, the choice in a known family, that nothing is refused while a class of the family is unknown, and the agreement with an order are proved for all graphs. Refuted: with a base class not known yet and no function found the node is deleted while its parent still holds it (TBOOL_HAZY is tested as a bool), and the negated inverse is chosen too early. Matching of the argument types of the function found is C40's subject; the other operators are C108. |
| C96 | Files of classes are read as written | partial | ClassParseTheorems.v | completeness, uniqueness, soundness up to the listed liberties and termination are proved for all inputs. Refuted: commas between parameters can be left out or follow the last one, native followed by a curly takes the curly of the class, ': local' leaves a class without a superclass, the concrete flag can be repeated or stand at the end of the file, and two ways to crash (a NULL node used, an assertion). Left out: array sizes, initialiser lists, constructor calls in member lists, local definitions, types after 'local.', constant references, names declared twice, operator functions. |
| C97 | Named constants may be defined in any order | partial | ConstResTheorems.v | the loop, the passes, the names and binary operators over scalar primitive constants of regular classes; operators and the cast to the declared type are arbitrary partial functions of values. Not modelled: constants whose types depend on constants, templates, inherited constants, array constants, other sources of WAIT. C97_limit_refuted: a chain of 101 uses against the order is refused though every constant has a value. |
| C98 | A variable never holds an object one of whose functions has no body | partial | AbstractTheorems.v | C98_accepts is exact for all programs of the modelled statements; C98_body_partial joins it with the virtual tables (C57_abstract), for classes all of whose virtual functions have one origin and one final override. C98_temporary_refuted: values returned by a function, made by instanceof, and class constants are never checked. Anonymous and unseen classes and stubs are left out. |
| C99 | A variable is not used in its own initial value | partial | InitUseTheorems.v | C99_outer_partial and C99_others give the meaning of every name the check reaches; C99_unused for all initial values without arguments. C99_argument_refuted: NodeFunctionCall's check answers TBOOL_FALSE without looking at the arguments, so Int a = f(a) is accepted and passes the variable itself. Assumed: blocks are numbered from the outside to the inside; constants declared in the block and initial values of data members are not modelled. |
| C100 | Points are added, compared and measured in full, or saturate | partial | C2DTheorems.v | Full for the arithmetic, Manhattan distance (2 bits and more), area, bounds, directions. C100_dot_partial: dot and the squares for coordinates of at most 16 bits, and the squared distance when the differences are representable. Refuted beyond: C100_square_refuted (C2D: the squared distance of (-32768,0) and (1,0) is 2^30 one way and 32767^2 the other, as the difference saturates), C100_dot_refuted (C2DT(17): the products saturate before they are added, so that the sum has the wrong sign), C100_onebit_refuted (C2DT(1)). Missing: the operators that assign (they store the result of the operator they name). |
| C101 | Template parameters get the arguments written for them | partial | ParamTheorems.v | C101_params and C101_args are exact for definitions and instances written with their commas, C101_same and C101_params_good hold for all token lists. C101_values, C101_no_abort and C101_ready for primitive scalar parameters, with the times through the compile loop as a list of what is known at each. C101_comma_refuted: the comma between arguments or parameters can be left out, and a comma may follow the last parameter. Stub copies of instances inside templates and the merging of equal instances (C54) are not part of it. |
| C102 | Angles between sites and square roots are true | partial | MDistTheorems.v | C102_angle_partial is exact for all pairs but those in opposite directions off the axes, where C102_opposite_refuted shows 179 for 180. The degrees are defined without real numbers: the full turns of 360 times the angle. The numbering of the sites is the library's (EXTERNAL); C102_sites shows which one is meant. C102_literals: the lexer of C55 reads the table as the bytes used here. |
| C103 | Colours are mixed, brightened and dimmed as documented | partial | ColorTheorems.v | Full for the channels (C103_color, C103_between, C103_ends, C103_modify, C103_dimmer, C103_brighter, C103_white, C103_black, C103_back). C103_alpha_refuted and C103_brighter_refuted: alpha in between, alpha 0 for the brighter of black, and blue that does not stay blue. |
| C104 | A declared size is the size of the type | partial | DeclSizeTheorems.v | C104_scalar is exact for constants of at most 32 bits, C104_array_partial for sizes that are an s32, not -2, and whose bits in all fit 32 bits; C104_member is exact. C104_wide_refuted and C104_wide_array_refuted: constants of more than 32 bits are cut (whatever the library does, one of 8 and 4294967304 goes wrong). C104_string_refuted: a String constant is accepted as bit size, its index becomes the size. C104_minus2_refuted: -2 items are not refused. The library's conversions to s32 are a parameter with a stated requirement; class constants as sizes are left out. |
| C105 | Uses of a template with the same arguments are one class | partial | InstTheorems.v | C105_no_abort, C105_same, C105_alias, C105_stable, C105_round and C105_waits hold for every sequence of uses and rounds. C105_few_uses bounds when a round complains; C105_circular_refuted: 110 ordinary uses of one instance, nine type indexes apart, are called circular. Which stubs wait, are skipped or are copies is a parameter, and so is the argument string (C54's subject); what is copied into an instance is left out. |
| C106 | The command line means what it says | partial | CmdTheorems.v | C106_accepts and C106_only_partial are exact except for a last -o without a directory (C106_o_refuted), C106_undefined except for a last -i (C106_i_refuted) and bytes that are no ASCII, for which isalnum is undefined. C106_search, C106_absolute and C106_output are exact; the file system is a parameter. |
| C107 | A telomere colony grows to its size and no further | partial | TelomereTheorems.v | C107_dup and C107_size hold for all widths up to 32 and any calls; C107_documented_refuted: the documented size is wrong for every width but 1. Atoms that are destroyed and the window are left out. |
| C108 | Operators on objects call the function of that operator | proved | OpCallTheorems.v | C108_own, C108_apart, C108_logical and C108_no_assert for every class; C108_assign and C108_index when the whole family is known; C108_waits while a class of it is unknown and none of the others has the function, or the fit of the right operand is unknown; C108_waits_here when the class itself has the function but is hazy. A function found in a hazy ancestor is not covered. The operands' own types are taken to be known and scalar. Which of several functions of the name takes the argument is C40; comparisons are C95. |
| C109 | Saving and restoring an event window brings back exactly what was saved | partial | EwBufTheorems.v | C109_save, C109_restore, C109_save_all, C109_fresh and C109_turned hold for every placement of the sites by the symmetries; that the natives number the sites 0 to 2r(r+1) and keep them apart is assumed, since they call a library that is not in the repository. Refuted: after a change of symmetry restore puts the atoms back in other places (C109_symmetry_refuted). |
| C110 | printf writes its format with each argument in its place | partial | PrintfTheorems.v | C110_prints, C110_short, C110_lone, C110_class, C110_unknown, C110_no_overrun and C110_call hold for all formats and argument lists; C110_number for Int, Unsigned and Bits. Refuted: Unary above 1 and wide Bools (C110_number_refuted, C110_unary is exact), a zero byte in the format (C110_zero_refuted), an as-variable as argument (C110_as_refuted). How the sink writes a number in a base, and the reading of mangled type names, belong to a library that is not in the repository; arrays as arguments are left out. |
| C111 | Files give back what was written to them | partial | FileTheorems.v | C111_read, C111_open, C111_close, C111_refused, C111_decimal, C111_buffers are exact; C111_write, C111_tag hold for texts of ASCII characters, C111_memory for all bytes but zero, and C111_disk says exactly what a text becomes on disk. Refuted: C111_disk_refuted, C111_unsigned_refuted, C111_closed_refuted, C111_extend_refuted, C111_add_refuted, C111_get_refuted. The C library is modelled by what its standard says, without failures of the disk; one file is open on a path at a time. |
| C112 | The core elements act with the odds they document | partial | DRegTheorems.v | C112_whole, C112_moves, C112_creates, C112_destroys, C112_dreg, C112_conserve, C112_copies and C112_fx hold for all atoms and positive parameters. Refuted: the documented odds of erasing a regulator, unless pDREG_DESTROY is 1 (C112_dreg_refuted). The event window and the independence of the numbers drawn are assumed, since they come from a library that is not in the repository; both sites are taken to be live. |
| C113 | Element parameters keep their defaults and are used as variables | partial | ModelParamTheorems.v | C113_default (numbers), C113_bits, C113_unary_bits, C113_bool_bits, C113_bool and C113_unsuited say for every kind of constant and parameter what the default is; C113_use covers all kinds and C113_changed the numbers. Refuted: a Unary that came from Bits may lose a one when it is given to fewer Bits (C113_unary_bits_refuted). Types not yet known and uses as references are left out; how the running program keeps and changes the parameter belongs to a library that is not in the repository. |
| C114 | Animals starve, eat and breed as hunger says | proved | AnimalTheorems.v | for the two elements, on live sites. C114_starves, C114_eats, C114_wanders and C114_hunger cover every window; C114_unfed and C114_balance every row of neighbours; C114_plant the plants. That ++ and -= stay within the range of Unsigned(7) is taken from C53. |
| C115 | A trigger must be armed before it is pulled, and a fire must rest before it burns again | proved | BurnTheorems.v | for Trigger, SimpleBurn, SimpleSpark and Evaporator, on live sites. C115_trigger covers the three states; C115_fires and C115_recovers every window; C115_rests and C115_armed every row of pulls between events; C115_spark and C115_evaporates the two others. Colours are left out. |

## Modelled code

One entry per model file, taken from its header: the files and lines of `/repo` it transcribes, what is left out, and what is simplified.

* **AbstractModel.v**: objects of abstract classes. Transcribes SymbolTableOfClasses.cpp:309-324 (checkAbstractInstanceErrorsForTableOfClasses), SymbolClassName.cpp:232-246 and SymbolClassNameTemplate.cpp:1739-1768 (checkAbstractInstanceErrorsForClassInstances), SymbolClass.cpp:2082-2102 (checkAbstractClassError), NodeBlockClass.cpp:114-119, SymbolTableOfFunctions.cpp:221-232, SymbolFunctionName.cpp:327-339, NodeBlockFunctionDefinition.cpp:65-71 and the checkAbstractInstanceErrors of the nodes: Node.cpp:66-69, NodeVarDecl.cpp:84-106, NodeVarRef.cpp:37-40, NodeBlock.cpp:54-58, NodeStatements.cpp:69-75, NodeControl.cpp:56-60, NodeControlIf.cpp:61-66, NodeReturnStatement.cpp:55-59, NodeSimpleStatement.cpp:50-54, NodeConstantDef.cpp:97-101, NodeList.cpp:103-110, NodeBinaryOp.cpp:63-67, NodeUnaryOp.cpp:48-52, NodeCast.cpp:48-52, NodeConditional.cpp:57-61, NodeQuestionColon.cpp:49-53. The answer is the number of errors. The virtual tables are those of VTableModel.v; whether a class is abstract is its isAbstract. Simplifications: a switch is the ifs and the block it is parsed into; a type is the class it is (an array: of that class), if it is one; classes that are anonymous or unseen, and instances still stubs, are left out.

* **AnimalModel.v**: the predators and prey of the demonstrations. Transcribes share/ulam/demos/PredatorPrey/Animal.ulam:12-45 and Plant.ulam:11-17. Simplifications: the sites 0 to 4 of the event window are modelled, all live, with the element itself at site 0; which neighbours they are is left to the symmetry (EXTERNAL). ++ and -= on Unsigned(7) stay within 0 and 127 (C53).

* **ArithModel.v**: the types of arithmetic and shift expressions, and the folding of constant arithmetic. Transcribes src/ulam/NodeBinaryOp.cpp:422-515, NodeBinaryOpArith.cpp:55-104, resultBitsize and castThyselfToResultType of NodeBinaryOpArith{Add,Subtract,Multiply,Divide,Remainder}.cpp, NodeBinaryOpShift{Left,Right}.cpp, NodeUnaryOpMinus.cpp and bitsizeToConvertTypeTo of UlamTypePrimitive{Int,Unsigned,Unary,Bool,Bits}.cpp. EXTERNAL: _BinOpAddInt32, ... (the MFM library, not in the repository) take two numbers of len bits and write the sum, ..., brought into the range of the type, as len bits. Simplifications: operands are primitive types (quarks with a toInt are left out); the type looked up or made for a key is the plain scalar type with that key; messages are dropped; abort is None. Also cited: NodeBinaryOpArithAdd.cpp, NodeBinaryOpArithDivide.cpp, NodeBinaryOpShiftLeft.cpp, NodeBinaryOpShiftRight.cpp, NodeUnaryOp.cpp, UlamTypePrimitiveInt.cpp.

* **AtomModel.v**: values of the evaluator: bit fields of an atom, pointers into it, packed arrays. Transcribes src/ulam/UlamValue.cpp:34-242, 281-337, 503-512, 579-1011 and src/ulam/CompilerState.cpp:1748-1775, 1859-1863. Simplifications: - the 96 bits of a value are one number (BitVec.v); AtomBitVector is the EXTERNAL MFM class; - a type is the record of UTypeModel.v rather than an index into the type table; - the effective-self index of a value is not modelled (no function below reads it); - a failed assert, or a field outside the atom, is None; - the asserts using UlamType::compareForUlamValueAssignment (type identity) are not modelled; - "this" is data, not a pointer, in getDataFromAtom. Also cited: CallStack.cpp, Constants.h, NodeSquareBracket.cpp, UlamValue.h.

* **BurnModel.v**: triggers and the simple excitable medium of the demonstrations. Transcribes share/ulam/demos/Burn/Trigger.ulam:10-26, SimpleBurn.ulam:12-45, 73-82 (SimpleSpark) and share/ulam/demos/ForkBombs/Evaporator.ulam:13-18. Simplifications: the sites 0 to 8 of the event window are modelled, all live, with the element itself at site 0; which neighbours they are is left to the symmetry (EXTERNAL). An atom of a class derived from Trigger is the state of its trigger, its counter and whatever else it holds; other atoms are opaque. ++ on Unsigned(6) is only used below the maximum. Colours are left out.

* **ByteModel.v**: byte streams of the standard library. Transcribes share/ulam/stdlib/ByteStreamArray.ulam:4-53, ByteStreamString.ulam:4-35 and the printing of ByteStream.ulam:54-135. A byte (ASCII) is an Unsigned(8), a number below 256. Simplifications: a writer is a function from its state and a byte to its new state, for printing (what writeByte returns is not looked at there); mFail.fail ends the event: None. Left out: the native print of UrSelf and printf, the loggers.

* **C2DModel.v**: the points of the standard library. Transcribes share/ulam/stdlib/C2D.inc:1-301, function by function, in the numbers of StdNumModel: the text that C2D.ulam:6 loads into C2DT(coordBits), whose Coord is Int(coordBits), and C2D.ulam:13 into C2D, whose Coord is Int(16). Simplifications: an object is the pair of the numbers in its data members x and y; a Self parameter is a copy (so that an assignment to it changes nothing outside); the operators that assign (C2D.inc:32-52, 93, 108) store the result of the operator that they name and are left out. The literals 0, 1, 4, -4, ... reach Int parameters unchanged (C52). coordBits is from 1 to 32: a wider Coord may not be given to an Int parameter without a cast, so that C2D.inc:68 does not compile. EXTERNAL: the negation of an Int(n) is the number with the other sign, brought into the range of Int(n). Also cited: NodeUnaryOpMinus.cpp.

* **CallStackModel.v**: the stack of the evaluator: frames, parameters, locals. Transcribes src/ulam/CallStack.cpp (all but assignUlamValue's case of a slot holding a pointer). Simplifications: the vector is a list, index 0 first; growing it to 2^31 values is OutOfMemory (a value takes at least 16 bytes, and the frame pointer is stored as an s32); a failed assert is Assert. Also cited: Node.cpp, NodeBlockFunctionDefinition.cpp, NodeFunctionCall.cpp, UlamValue.h.

* **CastModel.v**: explicit casts between the primitive types. Transcribes src/ulam/UlamTypePrimitive.cpp:37-57, 142-168 (explicitlyCastable, castMethodForCodeGen), UlamTypePrimitiveInt.cpp:227-243, UlamTypePrimitiveBool.cpp:209-218, UlamTypePrimitiveBits.cpp:187-208 and the names of the conversions that castTo32 and castTo64 call: UlamTypePrimitive{Int,Unsigned,Unary,Bool,Bits}.cpp. The evaluation of a cast is PrimModel.cast. Simplifications: messages are dropped; for a String the evaluator's conversion to Bool is named but not given (PrimModel.v). Also cited: UlamType.cpp.

* **ClassCastModel.v**: casts between classes, references to them and Atom. Transcribes what the compiler accepts: src/ulam/UlamType.cpp:96-116 (safeCast), src/ulam/UlamTypeClass.cpp:58-132 (safeCast, explicitlyCastable), src/ulam/UlamTypeClassElement.cpp:60-70, src/ulam/UlamTypeClassQuark.cpp:92-104, src/ulam/UlamTypeClassTransient.cpp:74-84 (explicitlyCastable), src/ulam/UlamTypeAtom.cpp:103-139 (both) and the checks of src/ulam/NodeCast.cpp:240-370 (checkAndLabelType); what the evaluator does with the pointer of a reference: NodeCast.cpp:655-790 (evalToStoreInto) with the cast methods UlamTypeClassElement.cpp:34-58, UlamTypeClassQuark.cpp:25-90, UlamTypeClassTransient.cpp:24-72, UlamTypeAtom.cpp:71-101; what the generated code does: NodeCast.cpp:1314-1380 (genCodeCastAtomToElement), 2026-2060 (genCodeCastDescendant), 2359-2398 (genCodeCastAncestorQuarkAsSub), 2480-2590 (genPositionOfBaseIntoATmpVar); and how the evaluator takes the part of a base out of a value: src/ulam/CompilerState.cpp:6469-6566. Simplifications: classes are complete and scalar (no arrays, nothing Hzy); casts to and from primitive types are not here (C74); constants are no operands; a class type is named by its root; of a pointer the position and what is needed to find it are kept, not the length; a data member by itself as operand (nodehasDM, NodeCast.cpp:722-730) and a custom array item are not covered.

* **ClassParseModel.v**: the parser of classes and of the file. Transcribes src/ulam/Parser.cpp:100-130 (parseProgram: the loop), 177-397 (parseThisClass), 408-526 (parseClassBlock), 569-642 (parseRestOfClassParameters), 644-661 (parseMultipleClassInheritances), 663-744 (parseRestOfMultiClassInheritance), 864-1055 (parseDataMember), 1057-1099 (parseRestOfDataMember), 2286-2353 (parseTypedef), 2355-2432 (parseConstdef), 2438-2493 (parseClassParameterConstdef), 2495-2561 (parseModelParameter), 5486-5559 (parseRestOfConstantDef), 5561-5617 (parseRestOfParameterDef), 5619-5811 (makeFunctionBlock), 5813-5881 (parseRestOfFunctionParameters), 5883-5922 (parseFunctionParameterDecl), 5924-6014 (parseFunctionBody), 6016-6083 (makeFunctionSymbol). Simplifications: as in StmtModel, whose statements and expressions these are; a type descriptor, with its arguments and its &, is one token, E (TType t); array sizes, initialiser lists, constructor calls in a list of data members, local definitions, types and bases after 'local.', constant references and reference class parameters are answered Unmodelled; no name is declared twice and no function name is an operator; class arguments are accepted; the class was not used before its definition; the stack of class contexts is left out.

* **ClassSizeModel.v**: finding the bit sizes of the classes. Transcribes src/ulam/SymbolTableOfVariables.cpp:130-266 (getTotalVariableSymbolsBitSize, getMaxVariableSymbolsBitSize), 352-526 (calcVariableSymbolTypeSize), src/ulam/NodeBlockClass.cpp:2026-2109 (sizes of the bases), src/ulam/SymbolClass.cpp:523-608 (trySetBitsizeWithUTIValues, determineSharedBasesAndTotalBitsize), src/ulam/SymbolClassName.cpp:352-408 (setBitSizeOfClassInstances), src/ulam/SymbolTableOfClasses.cpp:442-495, src/ulam/CompilerState.cpp:1937-1945, 2076-2235 (setUTIBitSize, setUTISizes, setBaseClassBitSize of scalar classes), src/ulam/UlamTypeClass.cpp:12,33-51 and src/ulam/Compiler.cpp:232-266, 375-391 (the resolving loop). Simplifications: - regular classes only, no template instances; a class has one type index, that of its scalar; sizes are unbounded integers where the code has s32 and u32; - a member's type is a primitive type of known size, a class, an array of a class, or not known at all (MHzy). The length of an array of a class is evaluated only when the class is complete (NodeTypeDescriptorArray.cpp:157-219, the test isReadyType), so such a type is unknown until the labelling after the pass that sized the class. This is the only thing the labelling does here; the branch SymbolTableOfVariables.cpp:388-419 for an array of known length of an unsized class is then dead. - EMPTYSYMBOLTABLE does not occur: the table of a class holds the typedef Self (Parser.cpp:447); - the table of variables is read in the order of declaration instead of the order of name numbers; - messages are counted (errors only); a failed assert sets st_bad and the pass goes on. Also cited: Constants.h, UlamType.cpp.

* **CmdModel.v**: the command line of the compiler, and where it looks for files. Transcribes src/drivers/culam/main.cpp:98-128 (SetOutputDir, AddSharedInputDir), 130-172 (EndsWith, AddClassName, AddInputDir), 229-284 (main up to the compilation), 331-334 (the catch), src/ulam/FileManagerStdio.cpp:10-68. Simplifications: the file system is given: which full paths fopen opens; an argument is a list of bytes without 0. isalnum (EXTERNAL) is the one of the C locale; given a char below 0 it is undefined. ULAM_SHARE_DIR is given, or not configured. Modes WRITE, APPEND and READWRITE differ for the file system only.

* **ColorModel.v**: colours in the standard library. Transcribes share/ulam/stdlib/ColorUtils.ulam:4-90 with the numbers of StdNumModel; literals have the width that holds them. Simplifications: Bits are taken as their number, 0 to 2^32 - 1 or 0 to 255, so that & and >> are those of integers; the loops over i = 1, 2, 3 are written out; the commented part of modify is left out.

* **ConstResModel.v**: the values of the named constants of the classes of a program. Transcribes src/ulam/Compiler.cpp:233-262 (checkAndTypeLabelProgram: the loop) and 377-393 (resolvingLoop: its last line), SymbolTableOfClasses.cpp labelTableOfClasses and updateLineageForTableOfClasses (the classes in the order of the table, once before the loop), NodeBlockClass.cpp checkAndLabelType and NodeStatements.cpp checkAndLabelType (the members in the order written), NodeConstantDef.cpp:358-797 (checkAndLabelType) and 895-1107 (foldConstantExpression), NodeConstant.cpp:172-313 (checkAndLabelType), 354-369 (updateConstant), NodeBinaryOp.cpp checkAndLabelType and constantFold. Simplifications: primitive scalar constants of regular classes whose types do not depend on a constant; every name used is defined in the class or an ancestor already known; the types being fixed, an operator is a function of the values of its operands, which may be in error (division by zero, overflow), and so is the cast to the type declared (None: not representable); operators evaluate both operands; nothing else in the program is hazy.

* **CrcModel.v**: bit storage and its checksums. Transcribes share/tcc/stdlib/Un_10109210BitStorage10_native.tcc:9-181 (write, read, crc_32_tab, UPDC32, computeChecksum) and share/ulam/stdlib/BitStorage.ulam:52-95 (isChecksumValid, updateChecksum). EXTERNAL: MFM's BitStorage: ReadLong(pos, len) is the number whose binary digits are the bits from pos on, WriteLong puts the last len binary digits of a number there, first digits first; both fail outside of the storage. The shifts: a shift by 32 or more gives 0 (C26). Simplifications: the position of the object in its storage (efpos) is 0; len is far below 2^32, so that pos + 8 does not wrap around; a storage is a function from positions to bits, with a size.

* **DRegModel.v**: the events of the elements that come with the core, and of three demonstrations. Transcribes share/ulam/core/DReg.ulam:13-70, core/Res.ulam:10-16, core/Wall.ulam:10, demos/DLA/DLA.ulam:10-15, demos/ForkBombs/ForkBomb.ulam:10-15 and demos/SimpleMotions/FX.ulam:6-17. Simplifications: of the event window the two sites the event touches are modelled, both live, site 0 with the element itself; which neighbour is site 1 is left to the symmetry (EXTERNAL). An atom is its class and its data; a class derived from DReg, Res or Empty counts as that class, as for the operator is. The numbers drawn by random are independent of each other (EXTERNAL), so an event is the list of its outcomes each with its probability. Also cited: EventWindow.ulam, Random.ulam.

* **DeclSizeModel.v**: the sizes written in declarations: the bit size within ( ) after the name of a type, the number of items within [ ] after the name of a variable, and what a data member may hold. Transcribes src/ulam/Parser.cpp:2804-2808,3328-3390 (parseTypeBitsize), src/ulam/NodeTypeBitsize.cpp:66-133 (checkAndLabelType), 147-275 (getTypeBitSizeInParen), src/ulam/NodeTypeDescriptor.cpp:720-775 (resolveTypeBitsize), src/ulam/NodeSquareBracket.cpp:886-999 (getArraysizeInBracket), src/ulam/NodeTypeDescriptorArray.cpp:218-266 (resolveTypeArraysize) and src/ulam/NodeVarDeclDM.cpp:492-573 (checkDataMemberSizeConstraints). Simplifications: the expression has been labelled and evaluated, it is a constant and ready; what is modelled is what becomes of its value. setSizesOfNonClassAndArrays is sizesAccepted of TypeTableModel.v: the type is not complete before its size is set. Arrays of arrays, empty brackets and holders are left out. Also cited: Constants.h, UlamType.inc, UlamTypePrimitive.cpp, UlamTypePrimitiveInt.cpp, UlamTypePrimitiveString.cpp, UlamTypePrimitiveUnary.cpp, UlamTypePrimitiveUnsigned.cpp.

* **DefaultModel.v**: default values of classes and the values of initialiser lists. Transcribes src/ulam/NodeVarDeclDM.cpp:793-917, 924-949 (buildDefaultValue, foldDefaultClass), src/ulam/NodeBlockClass.cpp:1758-1846 (buildDefaultValue), src/ulam/SymbolClass.cpp:689-738 (getDefaultValue), src/ulam/CompilerState.cpp:1835-1863 (getDefaultClassValue, getDefaultAsArray), src/ulam/NodeInitDM.cpp:454-578 (initDataMemberConstantValue), src/ulam/NodeListClassInit.cpp:275-286, src/ulam/NodeListArrayInitialization.cpp:305-490 (building arrays), src/ulam/NodeVarDecl.cpp:272-358 and src/ulam/NodeConstantDef.cpp:1110-1160, 1195-1232 (where the lists are used). Simplifications: the classes are complete, packed and free of errors, so that nothing waits for a later round; the names in a list are already looked up (a name is the class that declares the member and the member's number in it); sizes and positions are unbounded numbers, with the bounds of the vectors of 8192 bits checked: None for an access outside of them, for an error message and for an assertion. The values kept once computed (m_defaultValue, m_initialValue) are computed again instead. EXTERNAL: Parity2D_4x4::Add2DParity, the header of an element; BV8K, see BitVec.v. Also cited: UlamType.cpp, UlamTypeClassElement.cpp.

* **DupFuncModel.v**: functions that differ in nothing a call can see. Transcribes src/ulam/SymbolFunctionName.cpp:83-104 (overloadFunction), 342-426 (checkFunctionNames, checkFunctionSignatureReturnTypes, checkForDuplicateFunctionSignature), src/ulam/SymbolFunction.cpp:265-301 (getMangledNameWithUTIparameters), src/ulam/SymbolTableOfFunctions.cpp:35-64, src/ulam/NodeBlockClass.cpp:1419-1479 and src/ulam/SymbolTableOfClasses.cpp:254-269. Parameters: root and bases as in FamilyModel.v; compare, the comparison of types (C45), which does not abort; funcs, the functions of a class in the order of its maps (by the number of the name, then by the key of overloadFunction). Simplifications: no class block is the empty block; marking the node of a function as erroneous is left out; the reported errors are counted. Also cited: Symbol.cpp, SymbolClassName.cpp, SymbolClassNameTemplate.cpp.

* **ElementTypeModel.v**: * Element type numbers: the generator, the lookup, and the number kept by a class. Modelled code (under /repo): src/ulam/ElementTypeGenerator.cpp (whole file), include/Constants.h 97-107, src/ulam/SymbolClass.cpp 1134-1193 (assignElementType, assignEmptyElementType, getElementType), src/ulam/CompilerState.cpp 7311-7331. Simplifications. The map from sequence numbers to types (m_sequentialTypeMap) is only read back at the entry just written, so it is left out. The loop of makeAType takes a bound on its turns; [None] means that the bound was reached.

* **EqualOpModel.v**: the assignments that compute: += -= *= /= %=, ++ and --, &= |= ^=, <<= and >>=. Transcribes src/ulam/NodeBinaryOpEqual.cpp:40-93,196-224,524-572 (checkSafeToCastTo, makeDefaultStructAssignment, doBinaryOperationImmediate), NodeBinaryOpEqualArith.cpp:12-156,159-183,201-254, NodeBinaryOpEqualArith{Add,Subtract,Multiply,Divide,Remainder,PreIncr,PreDecr}.cpp (methodNameForCodeGen, makeImmediateBinaryOp, makeImmediateLongBinaryOp), NodeBinaryOpEqualArithPost{Incr,Decr}.cpp:36-123,161-205, NodeBinaryOpEqualBitwise.cpp:12-162,164-194,224-, NodeBinaryOpEqualBitwise{And,Or,Xor}.cpp, NodeBinaryOpEqualShift.cpp:12-147,149-178, 206-, NodeBinaryOpEqualShift{Left,Right}.cpp and Parser.cpp:6525-6538,6938-6946. EXTERNAL: the functions named in the calls (_BinOpAddInt32, ..., _BitwiseAndBits32, ..., _ShiftOpLeftBits32, ...) are in the MFM library; what they do is ArithModel.ext_binop, FoldModel.ext_bitwise and FoldModel.ext_shift; a division by zero and a shift by the word or more are not assumed to have any result. Simplifications: the left side is a place in one slot that may be stored into, of a scalar primitive type of at most 64 bits that is not a String; the right side is a literal or an expression with a value; classes, operator overloads and arrays are left out; messages are dropped, except that an error was reported is EErr; EStop is an abort, an assert or a call whose result is not assumed. Also cited: NodeBinaryOpEqualArithPostIncr.cpp.

* **ErrHandlerModel.v**: * Diagnostics: the message handler, and how the compiler driver turns counted errors into its result and exit status. Modelled code (under /repo): src/ulam/ErrorMessageHandler.cpp (whole file), src/ulam/Compiler.cpp 67-205 (compileFiles, compileFile) and 233-373 (checkAndTypeLabelProgram), src/ulam/Parser.cpp 105-175 (parseProgram), src/drivers/culam/main.cpp 175-192 and 289-330 (RunCompilation and the value main returns). Simplifications. What a compiler phase reports is given as a list of messages, arbitrary for each phase; no phase clears the counts or changes the mode itself (the only calls of clearCounts, revertToWaitMode and changeWaitToErrMode are the modelled ones, and SymbolTableOfClasses.cpp 58, which only the test driver reaches). The text written to the debug stream is left out. The summary messages at the end of a phase are informational, change no count, and are left out. The file argument of setFileOutput is a number.

* **EventWindowModel.v**: the evaluator's event window. Transcribes src/ulam/UEventWindow.cpp and include/UEventWindow.h but for setSiteElementType and makePtrToSite (which need the class table) and the live flag, which the loads and stores do not look at. Simplifications: the map is an association list; a failed assert is None. Also cited: USite.cpp.

* **EwBufModel.v**: the buffer that keeps an event window, share/ulam/stdlib/EventWindowBuffer.ulam:1-63. EXTERNAL, as parameters: getLastIndex (share/tcc/stdlib/Uq_10105MDist10_native.tcc:9-16 calls MDist::GetLastIndex) gives the last site number of a radius; aref (Uq_10109211EventWindow10_native.tcc:9-15 calls EventWindow::GetAtomBitStorage) takes a site number to a place by the current symmetry, or fails; getBase and setBase (Uq_1010919SiteUtils10_native.tcc:61-85) read and write the base atom. Simplifications: atoms are opaque; the log messages (21, 29-31, 48-54) and the member mRadiusSaved (4), which nothing uses, are left out; whether aref accepts a site number is the same for the whole of a save or restore. A failing aref or subscript is None. Also cited: EventWindow.ulam.

* **ExprModel.v**: the expression parser. Transcribes src/ulam/Parser.cpp:3718-3727 (parseAssignExpr), 3777-3956 (parseIdentExpr, parseRestOfMemberSelectExpr), 3958-4056 (parseMinMaxSizeofType), 4058-4106 (function calls), 4108-4169 (the levels), 4171-4436 (parseFactor, parseFactorStartingWithAType), 4438-4800 (the rests), 4803-5081 (the wraps), 6448-6516 (is, as), 6518-6954 (nodes), 6956-6991 (casts), 7081-7128 (getExpectedToken, getNextToken). Simplifications: a type descriptor (name, size or arguments, selection) is one token, TType, and an opening parenthesis or a dot other than before an of-operator does not follow it (those, reference casts, a type after a dot, instanceof(...), types after 'local.' are answered Unmod); self and super are identifiers; __FUNC__ and its like are string tokens; structured comments are removed; symbol tables, the conditional-as state and node locations are left out; casts are allowed. A node is what the parser builds; NNull is the pointer NULL, alone as the answer or as a missing operand.

* **FamilyModel.v**: base classes. Transcribes src/ulam/BaseclassWalker.cpp and the loops over it: src/ulam/CompilerState.cpp:2653-2680 (isClassASubclassOf), 2693-2707 (isBaseClassADirectAncestorOf), 5370-5405 (findNearestBaseClassToAnAncestor), src/ulam/SymbolClass.cpp:166-190 (isABaseClassItem) and 2103-2126 (buildIsBitVectorByRegNum). Parameters: root, the type an alias stands for (CompilerState::findRootUTIAlias, C31; that it does not abort is assumed); bases, the table of base classes of a class that alreadyDefinedSymbolClass finds, the super class first, 0 (Nouti) if there is none; compare, the comparison of types (C45), which does not abort. A type index is 16 bits wide, so that the walker's set of seen classes has at most 65536 members: this is the fuel. Running out of it is not possible (C32).

* **FileModel.v**: files of the compiler. Transcribes src/ulam/File.cpp:11-64,77-82,92-101, src/ulam/FileString.cpp:9-76, src/ulam/FileStdio.cpp:7-52, src/ulam/FileManagerString.cpp:19-117 and src/ulam/FileManagerStdio.cpp:21-48 (the first directory; the others are C106's). Simplifications: one file is open at a time on a path, and what it holds goes back to the map or the disk when it is closed; char is signed. EXTERNAL: the C library. fgetc gives the next byte or EOF, fputc writes the byte (unsigned char) c and returns it (no disk is full), fopen w truncates or creates, a writes at the end and creates, r and r+ start at the beginning and need the file; sprintf writes numbers in decimal or hexadecimal without leading zeros. EPERM is 1, EACCES 13. Also cited: FileManager.h.

* **FoldModel.v**: the folding of comparisons, bitwise operations, shifts and the two bit operations of one operand on constants. Transcribes src/ulam/NodeBinaryOpCompare.cpp:25-69,158-206,266-307, NodeBinaryOpCompare{EqualEqual,NotEqual}.cpp:39-150, NodeBinaryOpCompare{LessThan,LessEqual,GreaterThan,GreaterEqual}.cpp:39-103, NodeBinaryOpBitwise.cpp:41-71, NodeBinaryOpBitwise{And,Or,Xor}.cpp:35-89, NodeBinaryOpShift.cpp:13-71,101-195, NodeBinaryOpShift{Left,Right}.cpp:34-98, NodeUnaryOpTwiddle.cpp:41-95, NodeUnaryOpBang.cpp:36-92, NodeUnaryOp.cpp:160-194,301-460, NodeBinaryOp.cpp:268-303, 499-534,627-695 and NodeTerminal.cpp:230-319. EXTERNAL: _BinOpCompareEqEqInt32, ..., _BitwiseAndBits32, ..., _ShiftOpLeftBits32, ..., _BitwiseComplementBits32, _LogicalBangBool32 and their 64 bit versions are in the MFM library, not in the repository. A comparison compares the numbers of len bits; a bitwise operation acts on each of the len low bits; a shift moves the bits and keeps the len low ones. What a shift by the word size or more does is not assumed (C leaves it undefined): it is None here. Simplifications: both operands are literals or constants already folded (NodeTerminal), of a scalar primitive type other than String, at most 64 bits; quarks with a toInt and operator overloads are left out; the type made for a key is the plain scalar type with that key; messages are dropped, except that an error was reported is FErr; abort is FAbort. Also cited: NodeBinaryOpCompareEqualEqual.cpp, NodeBinaryOpCompareLessThan.cpp.

* **FrameModel.v**: the places of a function's variables in its stack frame, and of what is handed to it. Transcribes the calcMaxDepth functions of the parse tree (one per kind of node, cited below), SymbolFunctionName.cpp:300-325, and the order in which NodeFunctionCall.cpp:861-981 fills the stack. Simplifications: a node is here what calcMaxDepth sees of it: its children and the numbers of slots of the types it names (CompilerState.cpp:2560-2577, not negative). A node that does nothing (Node.cpp:893-896; NodeBlockEmpty.cpp:46-49, NodeBlockLocals.cpp:56-59, NodeListEmpty.cpp:72-75, NodeListClassInit.cpp:191-194; NodeList.cpp:229-243 when it is the initial value of a variable: what it computes is dropped) and a missing child are the same, ELeaf or SNone. Also cited: NodeBinaryOp.cpp, NodeBlock.cpp, NodeBlockFunctionDefinition.cpp, NodeCast.cpp, NodeControl.cpp, NodeControlIf.cpp, NodeQuestionColon.cpp, NodeReturnStatement.cpp, NodeStatements.cpp, NodeStorageof.cpp, NodeUnaryOp.cpp, NodeVarDecl.cpp, NodeVarRef.cpp, NodeVarRefAs.cpp, SymbolFunction.cpp.

* **GenNameModel.v**: the names that occur in the body of a generated C++ function. Transcribes src/ulam/CompilerState.cpp:6729-6878 (the temporaries and labels), Symbol.cpp:235-253 and :280-283 (user names), the prefixes in SymbolVariableStack.cpp:46-51, SymbolVariableDataMember.cpp:40-57, SymbolConstantValue.cpp:35-49, SymbolFunction.cpp:171-174 and :226-232, SymbolTmpVar.cpp:27-30, and NodeVarDecl.cpp:1461 and NodeConstantDef.cpp:1724 (_init). A number of a temporary is a positive s32 (getNextTmpVarNumber counts up from 1).

* **HexEscapeModel.v**: HexEscape, the HexU64 constant text, and the .ulam suffix test. Transcribes src/ulam/UlamUtil.cpp:133-197.

* **IndexModel.v**: Array subscripts: which indexes the compiler, the evaluator and the generated code accept, and the storage they then reach. NodeSquareBracket.cpp and UlamValue::incrementPtr. Simplifications: the array is a plain array (custom arrays and overloaded operator[] become function calls, NodeSquareBracket.cpp:190-240,322-375); the operands have been evaluated already, the index is its type and its right-justified bits; class typed indexes have been cast to Int and Unary ones to Unsigned (402-412), so the two kinds below are the ones left. Also cited: CallStack.cpp, Constants.h, Node.cpp, UlamType.cpp, UlamTypePrimitiveInt.cpp, UlamTypePrimitiveUnsigned.cpp, UlamValue.cpp, UlamValue.h.

* **InitUseModel.v**: what the names in the initial value of a local variable stand for. Transcribes src/ulam/NodeVarDecl.cpp:745-775 (the check after the initial value is labelled, in each pass) and the checkVarUsedBeforeDeclared of the nodes of expressions: NodeIdent.cpp:719-769, NodeConstant.cpp:484-525, NodeBinaryOp.cpp:69-78, NodeUnaryOp.cpp:54-58, NodeCast.cpp:54-58, NodeQuestionColon.cpp:55-64, NodeList.cpp:112-132, NodeMemberSelect.cpp:333-363, NodeFunctionCall.cpp:651-654, NodeInstanceof.cpp:71-74, NodeAtomof.cpp:126-130, NodeTerminal.cpp:589, NodeConditionalIs.cpp:171-175. The look-up of a name is that of ScopeModel.v. Simplifications: blocks are numbered from the outside to the inside, so a block number less than that of the declaration's block is one of the blocks around it; the passes are repeated until nothing changes.

* **InstModel.v**: the instances of one class template: every use of the template makes a stub with a type index of its own; stubs whose arguments are known become classes, or are merged with the class of the same arguments. Transcribes src/ulam/SymbolClassNameTemplate.cpp:315-342 (findClassInstanceByArgString, addClassInstanceUTI, addClassInstanceByArgString), 1254-1384 (fullyInstantiate), src/ulam/CompilerState.cpp:446-474 (replaceUTIKeyAndAlias, its count), 842-861 (incrementKeyToAnyUTICounter), 2274-2304 (mergeClassUTI). Simplifications: a class symbol is named by its own type index. Which stubs are skipped (1280-1284), are copies (1292-1297), wait for arguments (1300-1305) or for their base classes (1332-1337) in a round is given; the argument string is given too (it is C54's subject). A template that has no definition yet (1262-1272) is left out. The stubs are scalar classes and no references, so that mergeClassUTI does not return early (2282-2283). What is copied into the class (1339-1371) is left out, the stub copies that the check of the bases makes belong to other templates (1443-1445).

* **IsAsModel.v**: the conditions "is" and "as", and the registration numbers of classes. Transcribes src/ulam/NodeConditionalIs.cpp:60-160, 169-247 (checkAndLabelType, eval), src/ulam/NodeConditionalAs.cpp:66-300, 302-461 (the same), the code that both generate (NodeConditionalIs.cpp:249-388, NodeConditionalAs.cpp:463-618) with the methods they call in the generated classes (src/ulam/NodeBlockClass.cpp:3310-3561), and src/ulam/CompilerState.cpp:7333-7343 (assignClassId) with src/ulam/SymbolClass.cpp:1102-1132, 1195-1208 (assignRegistryNumber, getRegistryNumber). Simplifications: the classes are complete (C37), so that nothing waits (Hzy) and no name is unknown (Nav); arrays, function calls and super as left operands of "as" are refused by the parser tree's shape, and are not modelled; of a pointer only the type of its target, its effective self and its position are kept; the length of the target, which makePtr checks against the 96 bits of an atom (UlamValue.cpp:206-213), is not. Also cited: Constants.h, UlamType.cpp.

* **LayoutModel.v**: sizes of classes and positions of data members and base parts. Transcribes src/ulam/SymbolTableOfVariables.cpp:130-266 (sizes of a class's own members), src/ulam/SymbolClassName.cpp:352-408 (setBitSizeOfClassInstances), src/ulam/SymbolClass.cpp:213-244, 378-395, 568-608 (shared bases), src/ulam/CompilerState.cpp:1937-1945, 2743-2766, 2796-2866, 2868-2892 (sizes and positions of bases), src/ulam/NodeBlockClass.cpp:2253-2422 (packBitsForVariableDataMembers) and src/ulam/NodeVarDeclDM.cpp:951-980 (packBitsInOrderOfDeclaration). Simplifications: the classes are complete and free of errors (no Hzy, Nav, unknown sizes), so that these functions are past their waiting; sizes are unbounded numbers instead of s32/u32 (the limits of 64, 71 and 8192 bits are checked elsewhere); the table of variables is summed in declaration order instead of the order of name numbers. The early return of packBits for an empty table is not modelled: the parser puts the typedef Self into every class's table (Parser.cpp:447). Every base is shared: the parser passes true (Parser.cpp:463, 655), as do SymbolClass.cpp:16 and 24. Also cited: UlamType.cpp, UlamTypeClassElement.cpp.

* **LexerModel.v**: from the bytes of the source to tokens. Transcribes include/Token.inc, src/ulam/Token.cpp:112-124,145-148 and src/ulam/Lexer.cpp:54-1060. The input is the bytes not yet read, all files in one (C11): reading takes the first byte, at the end it gives -1 (CompilerState keeps no open file then, so that unread does nothing: SourceStream.cpp:28-44); unread puts the byte read last back. A second unread without a read in between does nothing: this happens only in getNextToken after eatComment, where it is modelled with the flag [e_pend]. Simplifications: a token is its type (the name in Token.inc) and its text; the place is left out (C10), so __FILE__, __FILEPATH__ and __LINE__, which stand for it, are given back as their own flags; the text of error messages is left out; the token put back by unreadToken (Lexer.cpp:58-63) is the parser's. Also cited: Token.h.

* **LeximitedModel.v**: the leximited text encoding used in every mangled name. Transcribes src/ulam/UlamUtil.cpp:11-131.

* **LoopModel.v**: * Loops, which-controls (switches), break and continue: how the parser numbers and labels them, how the compile-time evaluator runs the resulting tree, and what the generated C++ does. Modelled code (all under /repo/src/ulam): - ParsingLoopsSwitchStack.cpp 1-118: the stack of enclosing loops and switches; - Parser.cpp 1366-1388 (parseControlStatement), 1472-1525 (parseControlWhile), 1526-1674 (parseControlFor), 1676-1737 (makeControlWhileNode), 1739-1876 (parseControlSwitch), 1878-1950 (parseNextCase), 1952-2082 (parseRestOfCase), 2219-2248 (break and continue statements); - CompilerState.cpp 6729 (getNextTmpVarNumber); - eval and genCode of NodeControlWhile.cpp 36-136, NodeControlIf.cpp 138-215, NodeControl.cpp 181-248, NodeStatements.cpp 226-247, NodeBlock.cpp 158-167 and 282-298, NodeBreakStatement.cpp 57-86, NodeContinueStatement.cpp 53-65, NodeLabel.cpp 55-69, NodeBinaryOpLogicalOr.cpp 33-68. Simplifications. Source statements arrive as a tree, not as tokens: the token level of these productions is not modelled, nor are [as]-conditions and declarations. Everything that is not control flow is an opaque action on an abstract state, and a condition is an opaque function that may change the state too. The counter of temporary variables is not wrapped at 2^32, and neither are the use counts. Error and not-ready results of the evaluator come from actions and are left out.

* **MDistModel.v**: angles and square roots in the standard library. Transcribes share/ulam/stdlib/MDist.ulam:12-52 (cSiteNumsToAngleArray), 54-55 (cUnsigned6To32TimesSqrt) and 110-130 (acuteAngle, angleCW, sqrt32). The rows are the texts of the literals, as they stand in the file; what they mean is C55's. Simplifications: Index is Unsigned(6), so site numbers are 0 to 63 here; a failing subscript of the array or of a string is None; the coordinates of a site come from a native function, which calls a library that is not in the repository: a parameter here. No operation can saturate: the coordinates of sites are -4 to 4.

* **MangleModel.v**: the generated names of types, of template instances and of functions. Transcribes src/ulam/UlamType.cpp:223-249, UlamTypeClass.cpp:143-182, SymbolFunction.cpp:227-261, SymbolClassName.cpp:108-115, SymbolClassNameTemplate.cpp:910-1000, SymbolWithValue.cpp:72-82,478-545,806-869, CompilerState.cpp:5532-5538 and include/UlamType.inc. EXTERNAL: _Int32ToInt32, _Bool64ToCbool, _Unary64ToInt64 (MFM library) take the number out of the bits (ext_val); BitVector::Read gives len bits at a position, most significant first. Simplifications: template arguments are known values (the code writes the parameter's name for one that is not); a user string is its stored form (C08, C09); the class behind a type is given by name. Also cited: Symbol.cpp.

* **ModelParamModel.v**: the parameters of an element ("model parameters"), which have a default value and can be changed while the program runs. Transcribes src/ulam/NodeModelParameterDef.cpp:49-67 (checkAndLabelType), 129-241 (foldConstantExpression), src/ulam/NodeModelParameter.cpp:43-59 (isAConstant, safeToCastTo), 122-125 (genCodeToStoreInto), src/ulam/SymbolWithValue.cpp:96-107, 119-124 (getValue, setValue) and src/ulam/NodeConstant.cpp:680-695 (updateConstant). Simplifications: the type of the parameter is known, and its expression has been folded into a constant (NodeTerminal; C52, C53); messages are dropped, except that an error was reported is MNav. Also cited: NodeTerminal.cpp.

* **OpCallModel.v**: operators with a class as (left) operand, from the token to the function that is called. Transcribes the nodes that Parser.cpp makes for the tokens: 6525-6536, 6550-6587 (assignments), 6659-6667, 6694-6704, 6808-6815, 6843-6850, 6878-6888 (the other binary operators) and 6914-6947 (before the operand); getName of the Node*Op*.cpp files; src/ulam/Node.cpp:3391-3424 (buildOperatorOverloadFuncCallNodeHelper), NodeBinaryOp.cpp:163-192, 233-261, NodeBinaryOpEqual.cpp:163-202, 231-328, NodeBinaryOpEqualArith.cpp:85-119, NodeBinaryOpEqualBitwise.cpp:33-49, NodeBinaryOpEqualShift.cpp:32-48, NodeBinaryOpShift.cpp:13-30, NodeBinaryOpEqualArithPre{Incr,Decr}.cpp:36-43, NodeUnaryOp.cpp:132-174, NodeUnaryOp.cpp:196-199 and NodeSquareBracket.cpp:210-236, 509-543. The comparisons are OpDispatchModel.v. Parameters: as there, and matching, what findMatchingFunctionWithSafeCastsInAClassScopeOrAncestor answers for the right operand: how many functions, and whether it is hazy. Simplifications: the operands' own types are known, scalar, not Void and may be stored into (the code before the lines above refuses or waits otherwise); that the node built takes its place in the parent, is labelled again and reports a function that does not exist or is ambiguous is not part of it; messages are dropped. Also cited: NodeBinaryOpEqualArithPreIncr.cpp, PreDecr.cpp, Token.cpp, Token.inc.

* **OpDispatchModel.v**: comparisons of class operands, and the names of operator functions. Transcribes src/ulam/NodeBinaryOpCompare.cpp:25-37 (the start of checkAndLabelType) and 71-155 (buildOperatorOverloadFuncCallNode), getInverseOpName of the six NodeBinaryOpCompare*.cpp:22-25, src/ulam/NodeBinaryOp.cpp:233-255 (buildandreplaceOperatorOverloadFuncCallNode), src/ulam/CompilerState.cpp:4742-4780 (isFuncIdInAClassScopeOrAncestor), src/ulam/Token.cpp:139-151,197-248 and the operators of include/Token.inc:26-82. Parameters: root and bases as in FamilyModel.v; hzy, the index of the type not known yet; declares, whether the class itself has a function of that name (NodeBlockClass::isFuncIdInScope); hazyHere, checkHasHazyKin of the class (CompilerState.cpp:7728-7764: a stub, a holder or a base class that is not ready). Simplifications: the numbers of the string pool are the texts; messages are dropped. Also cited: NodeBinaryOpCompareEqualEqual.cpp.

* **OrderModel.v**: Order of evaluation and truth of conditions: the evaluator (the eval methods, used to fold constants and to run tests) against the generated C++ (the genCode methods). Sources (all in /repo/src/ulam): NodeBinaryOp.cpp:627-653 (eval: left operand, then right), 772-835 (genCode: right, then left; NodeBinaryOpCompare.cpp:386- is the same); NodeBinaryOpEqual.cpp:392-420 (eval: place of the left side, then the right side, then the store), 721-745 (genCode: right side, then the place, then the store); NodeBinaryOpEqualArith.cpp:190-240, NodeBinaryOpEqualBitwise.cpp:225-, NodeBinaryOpEqualShift.cpp:209-, NodeBinaryOpEqualArithPostIncr.cpp:34-75,153-, NodeBinaryOpEqualArithPostDecr.cpp:153- (compound assignment: the old value is read after both); NodeBinaryOpLogicalAnd.cpp:34-71,94-142 and NodeBinaryOpLogicalOr.cpp:34-68,88-150; NodeQuestionColon.cpp:407-448,491-605; NodeSquareBracket.cpp:584-654,718-761,1001-1108; NodeUnaryOp.cpp:378-399,458-; NodeFunctionCall.cpp:660-757,861-934 (eval: arguments in reverse order), 1985-2052 (genCode: arguments in order); NodeControl.cpp:114-160,181-248 with NodeControlIf.cpp:140-180,181-212 and NodeControlWhile.cpp:36-78,81-134. Modelled: values are data bits; variables are arrays of items (item 0 of a plain variable); every operator is a partial function given by its number, the same in both worlds because makeImmediateBinaryOp and the generated code call the same (EXTERNAL) library function. A result None is an error, an abort or a FAIL. Simplified: parameters are passed by value and only read; a function body is a statement and a returned expression; break, continue and early return are in LoopModel.v; the bounds of an index are modelled as one check (the exact checks are in IndexModel.v).

* **OverloadModel.v**: choosing the function for a call. Transcribes src/ulam/SymbolFunction.cpp:310-443 (matchingTypesStrictly, matchingTypes), src/ulam/SymbolFunctionName.cpp:163-242 (findMatchingFunction, findMatchingFunctionWithSafeCasts), src/ulam/CompilerState.cpp:4996-5205 (the same in a class and in its base classes) and the use of the answer in src/ulam/NodeFunctionCall.cpp:160-239. Parameters: what the type system answers about one parameter and one argument (rel); the overloads of the called name in each class (overloads), in the order of the map; root, bases as in FamilyModel; sub, isClassASubclassOf (C32); hzy, the index of the type Hzy, which a base class not yet known has. Left out: messages; the table of signatures that findMatchingFunctionWithSafeCasts fills and nobody reads.

* **ParamModel.v**: the parameters of class templates, and the arguments of their instances. Transcribes src/ulam/Parser.cpp:569-641 (parseRestOfClassParameters), 2438-2492 (parseClassParameterConstdef), 5486-5554 (parseRestOfConstantDef), 3030-3160 (parseClassArguments, from the open parenthesis on), 3162-3324 (parseRestOfClassArguments), SymbolClassNameTemplate.cpp:85-112, 550-765 (fixAnyUnseenClassInstances, for one instance), 767-824 (fixAClassStubsDefaultArgs) and Resolver.cpp:374-452 (constantFoldNonreadyClassArgs); a constant expression is labelled as in ConstResModel. Simplifications: parameters are of primitive scalar types, known already; what parseExpression reads is one token here (AE), so is the type, name and default value of a parameter (PDecl); a token at which no expression or no parameter begins is ABad or PBad. An instance has the arguments of the place where it is written: stub copies (copyAStubClassInstance, members of templates) are left out. A parameter is found by its name, the argument _i of an instance of an unseen template by its position.

* **PickModel.v**: random choice among sites. Transcribes share/ulam/stdlib/WindowScanner.ulam:25-120 (one category), WindowServices.ulam:50-74,137-160 (one slot) and share/ulam/misc/SelectorServices.ulam:16-137. EXTERNAL: random.create(n), n > 0, is one of 0 .. n - 1, each as likely as the others (Random.ulam:19, Uq_10106Random10_native.tcc:11-16, MFM's Random::Create); what a program may become by a draw is the list of what it becomes by each of the n numbers, so that a result is as likely as it is frequent in the list. create(0) has no result. Sums: += on Unsigned(n) and casts to it bring the sum into the range of the type (C25, C53). Simplifications: one category (slot) alone, the others being apart from it in the arrays; a category that is in use.

* **PreparseModel.v**: the directives use, load and ulam. Transcribes src/ulam/Preparser.cpp:7-266, src/ulam/Tokenizer.cpp:11-14, and of src/ulam/SourceStream.cpp and src/ulam/Lexer.cpp what it calls (push, exists, discardTop, setFileUlamVersion; getNextToken's unread token). Simplifications: a file is the list of its tokens (what the lexer makes of its bytes is LexerModel.v, what the stream makes of nested files SourceStreamModel.v), so no token begins in one file and ends in another; messages and positions are dropped, an error is the token TError. EXTERNAL: the file manager's open is a map fs from names to files; strtol of base 0. Also cited: Compiler.cpp, Parser.cpp, StringPoolUser.cpp, UlamVersion.h.

* **PrimModel.v**: casts between the primitive types, their limits, and literals. Transcribes src/ulam/UlamType.cpp:96-182, UlamTypePrimitive.cpp:23-57,374-411, UlamTypePrimitive{Int,Unsigned,Unary,Bool,Bits}.cpp (constructor, cast, castTo32, castTo64, safeCast), include/Constants.h:233-245 and NodeTerminal.cpp:132-204,230-319,331-551. EXTERNAL: the conversions _Int32ToInt32, _Unsigned64ToUnary64, ... and the comparisons _BinOpCompareEqEqInt32, ... belong to the MFM library and are not in the repository. They are modelled by what they are used for: take the number out of the source bits (ext_val), bring it into the range of the destination, write it as destination bits (ext_enc). The 32 and 64 bit versions differ only in the width of their operands. Simplifications: messages are dropped; a type is the record of UTypeModel.v; class types are compared by instance index in checkReferenceCast; the cast of a String to a Bool (32 bit only) fails here; ~data for a failed conversion is a value different from data. Also cited: NodeTerminalProxy.cpp, UlamTypePrimitiveBits.cpp, UlamTypePrimitiveBool.cpp, UlamTypePrimitiveInt.cpp, UlamTypePrimitiveUnary.cpp, UlamTypePrimitiveUnsigned.cpp, UlamValue.cpp.

* **PrintfModel.v**: printf of the byte streams, and the arguments a call hands to it. Transcribes share/tcc/stdlib/Uq_10109216ByteStreamWriter10_native.tcc:66-206 and Uq_10109210ByteStream10_native.tcc:60-161 (printf), src/ulam/NodeFunctionCall.cpp:393-429 (variable arguments checked) and :2021-2047 (variable arguments generated). What is written is kept as the list of what is handed to the sink, in order; how the sink writes a number in a base (ByteSink.Print) is EXTERNAL. Also EXTERNAL: BitStorage.Read of the bits of an argument (here the pattern of its bits, o_raw), the reading of a mangled type name (UlamTypeInfo; o_type), the global string pool of the generated code (pool; None is the null pointer). Simplifications: an argument is a scalar or a class, no array; a constant cast to its own type (CompilerState.cpp:1705-1708) is itself.

* **QColonModel.v**: the conditional expression c ? a : b. Transcribes src/ulam/NodeQuestionColon.cpp:142-316 (the type), 339-405 (folding when the condition is a constant) and 407-450 (evaluation), with Node.cpp:513-549 (checkSafeToCastTo). Simplifications: types are the records of UTypeModel.v, compared by their keys; messages are dropped; making a casting node always works; a failed NODE_ASSERT is QAbort; an operand is given by its type and by what its evaluation leaves (None: it fails). Also cited: NodeBinaryOp.cpp, UlamType.cpp.

* **RandModel.v**: ranges, odds and timers of the standard library. Transcribes share/ulam/stdlib/Random.ulam:19-45, XTimer.ulam:16-47, RXTimer.ulam:18-32 and Once.ulam:10-45. EXTERNAL: as in PickModel, create(n) for n > 0 (Uq_10106Random10_native.tcc:11-16) is the list of its equally likely results; create(0) has no result. Simplifications: a timer is its counter; the sum and difference of Int(32) numbers are brought into the range of Int(32), and casts bring a number into the range of the type (C53, C25, C74); k << t on 32 bits loses the bits above (C26).

* **RefModel.v**: references and what they stand for, in the evaluator. Transcribes the parts of NodeVarRef::eval, NodeIdent::makeUlamValuePtr, evalToStoreInto and eval, CompilerState::getPtrTarget, CallStack::assignUlamValue and NodeFunctionCall::evalArgumentsInReverseOrder that deal with references to variables of one slot. Simplifications: every value takes one slot and is a number; arrays are unpacked, an item's slot is that of the array plus the index, and an index outside the array ends the run (what happens then: C51, C66); the stack is a function from its indices; calls are statements, their arguments make no calls; functions return nothing, so that of parameter i the slot is -3-i (C82); a reference has the type of what it is bound to, so that the pointer kept with its symbol is the one used. Also cited: CallStack.cpp, CompilerState.cpp, NodeFunctionCall.cpp, NodeIdent.cpp, NodeVarRef.cpp, SymbolVariableStack.cpp.

* **RetRefModel.v**: references returned by functions, in the evaluator. Transcribes NodeReturnStatement.cpp:318-353 (evalToStoreInto), CompilerState.cpp:6191-6247 (isLocalUnreturnableReferenceForEval), CallStack.cpp:227-237 (isLocalSlot, isLocalStackIndex), and of NodeBlockFunctionDefinition.cpp:361-455 and NodeFunctionCall.cpp:768-857 (evalToStoreInto) the way of the pointer back to the caller. Simplifications: those of RefModel. A function that returns a reference is here a body that ends with the one return statement; the slot for the returned pointer is left out of the frame, so that the slots of parameters are one higher than they are (C82). The pointer to self, which may always be returned, is not among the lvalues.

* **RetValModel.v**: return statements and the type of the function. Transcribes NodeReturnStatement.cpp:99-267 (checkAndLabelType) and CompilerState.cpp:5579-5676 (checkFunctionReturnNodeTypes) with UlamType.cpp:542-592 and 593-666 (the two ways of comparing types). Simplifications: all types are complete; the returned expression is what these functions see of it: a literal (NodeTerminal) with its value, or anything else that is not constant; makeCastingNode, called for a cast that is safe, gives a cast to the type asked for (Node.cpp: makeCastingNode; C79 for classes). The returned types are the primitive ones and Void: what safeCast is for. That the body is walked is left to the tree: the list of return nodes has one entry for every return statement in it. Also cited: NodeIdent.cpp, NodeTerminal.cpp.

* **ScopeModel.v**: which declaration a name stands for. Transcribes src/ulam/CompilerState.cpp:4435-4627 (alreadyDefinedSymbol and the searches of ancestors), 4629-4732 (alreadyDefinedSymbolHere, isDataMemberIdInClassScope, isIdInLocalFileScope, isFuncIdInClassScope), 7465-7477, src/ulam/NodeBlockClass.cpp:1939-1942, src/ulam/NodeBlock.cpp:179-182, src/ulam/NodeIdent.cpp:295-418, 503-563, 686-716 (the look-up of an identifier, passes repeated), src/ulam/NodeConstant.cpp:320-379, 454-485, src/ulam/NodeVarDeclDM.cpp:440-490 (data members that shadow) and src/ulam/CompilerState.cpp:3790-3885 (a type name not yet known, with the typedefs of the ancestors). Simplifications: all classes are complete, so that no kin is hazy; symbol tables are functions (C43); an identifier that the parser finds in the current block is not different from one it does not. What comes after a look-up (types, self) is left out.

* **SourceStreamModel.v**: source positions and the stack of open source files. Transcribes src/ulam/Locator.cpp, src/ulam/SourceStream.cpp, include/SourceStream.h:164-258, src/ulam/FileString.cpp:22-41 and src/ulam/CompilerState.cpp:6616-6689. Simplifications: file names and lines of text are represented by themselves or by their string pool index (the pool is injective and stable, C07); the full path index of a locator, which never takes part in comparisons, is left out; the file manager is a function from the file name's index to the file's contents. Also cited: Locator.h.

* **StdNumModel.v**: the numbers that ulam code computes with: used to transcribe the standard library (share/ulam/stdlib), which is written in ulam. An expression has a kind, a width and a value; the type of an operation is the one that the compiler gives it (ArithModel.resultType: NodeBinaryOpArith.cpp:55-104 and resultBitsize, castThyselfToResultType of the five operations), its value is brought into the range of that type (C53, C25); an explicit cast brings the value into the range of the type (C74, C23). Comparisons compare the numbers (C63). None: a division by zero (the evaluator and the generated code fail), or no type. Simplification: the operands of an operation are taken to be brought into its type without change, which the compiler checks (checkSafeToCastTo, NodeBinaryOp.cpp:273-303).

* **StmtModel.v**: the statement parser. Transcribes src/ulam/Parser.cpp:1216-1351 (parseBlock, parseStatements, parseStatement, parseStatementAsBlock), 1354-1403 (parseControlStatement), 1405-1470 (if), 1472-1524 (while), 1526-1673 (for), 1675-1737 (makeControlWhileNode), 1739-2079 (which, its cases), 2081-2179 (conditions with as), 2181-2283 (parseSimpleStatement), 2565-2623, 5091-5198 with 1101-1139 (declarations), 3691-3716 (parseReturn), 5924-5953 (the body of a function), 7075-7145 (tokens). Simplifications: expressions are those of ExprModel (a type descriptor is one token, E (TType t)); a declaration with a reference, an array size, a constructor call or an initialiser list, typedef, constant and local are answered Unmodelled; symbol tables are left out (no name is declared twice); structured comments are removed; the numbers of labels are left out (C34), whether break and continue are allowed is kept. The end of the file is [] or E TEnd.

* **StoreModel.v**: * What may be assigned to: the labels "storeIntoAble" and "referenceAble" that checkAndLabelType puts on the nodes of an expression, the uses that ask for them, and the place each node hands to a store. Modelled (files under src/ulam): - Node.cpp:179-209 setStoreIntoAble sets both labels; minTBOOL - NodeIdent.cpp:421-428 labels of a variable - NodeIdent.cpp:910-975 evalToStoreInto of a variable - NodeCast.cpp:337-378 refusals of explicit casts - NodeCast.cpp:545-551 labels of a cast - NodeCast.cpp:656-690 evalToStoreInto of a cast - NodeCast.cpp genCodeToStoreInto, genCodeToStoreIntoCastToAReference - NodeQuestionColon.cpp:142-157, 275-310, 452-489 type, labels, place - NodeSquareBracket.cpp:437-451, 718-757 - NodeMemberSelect.cpp:482-518, 662-709 - NodeMemberSelectByBaseClassType.cpp:225-235, 388- - NodeFunctionCall.cpp:241-268 (reference arguments), 471-478, 762-785 - NodeStorageof.cpp:222-236, 265-282; NodeAtomof.cpp makeUlamValuePtr (for a variable of its own) - NodeBinaryOpEqual.cpp:123-128, 330-351, 422-440 - NodeVarRef.cpp:262-295 initialisation of a reference - NodeConstant.cpp:623- evalToStoreInto of a named constant - UlamType.cpp safeCast, checkReferenceCast: no cast from a constant reference to a plain one. Simplifications. Only complete types (the label is never HAZY). A type is a number for what it is without its reference kind, and the kind. Casts to a reference keep the number (casts between related classes are the subject of ClassCastModel). Explicit casts to a non-reference are never refused here, which only makes more programs accepted. A condition of ?: is not a compile-time constant (a constant one is folded away, NodeQuestionColon.cpp:312). Custom arrays are left out.

* **StringPoolModel.v**: string interning and the user string table. Transcribes src/ulam/StringPool.cpp, src/ulam/StringPoolUser.cpp and src/ulam/CompilerState.cpp:4237-4318, 5486-5530. Also cited: Lexer.cpp.

* **Strto64Model.v**: conversion of numeric literals, src/ulam/strto64.cpp. The input is the list of chars before the terminating NUL (a NUL inside the list also terminates). C++ char is signed: a byte >= 128 is negative, so read() returns a negative value for it, which every caller treats as end of input. Also cited: strto64.h.

* **SymTableModel.v**: symbol tables (src/ulam/SymbolTable.cpp). A symbol is an address into a heap of cells. A cell is alive and holds the symbol's name id and a payload (everything else about it), or it has been deleted. A table is the std::map<u32, Symbol*> m_idToSymbolPtr of include/SymbolTable.h:84, kept as a list of pairs in increasing order of id (EXTERNAL: std::map iterates in key order, find/insert/erase as usual, and its iterators survive the insertion of other keys). Simplifications: the type alias update of mergeATableHere (SymbolTable.cpp:56-62) changes the type system only and is left out; Symbol::clone is a new cell with the same name id and the same payload (the sub-classes' clone functions are not modelled); Symbol::getId (Symbol.cpp:54) is the name id of the cell. Also cited: CompilerState.cpp, SymbolClassNameTemplate.cpp.

* **TelomereModel.v**: the growth of a colony by Telomere. Transcribes share/ulam/misc/Telomere.ulam:15-42. Simplifications: a colony is the list of the ages of its atoms; the other atoms and where the atoms are is left out: dup is called for any atom of the colony, with a destination that is live and empty, or is not. Ages are Unsigned(width), and += saturates (C76).

* **TypeTableModel.v**: the table of types: keys, type indexes (UTIs) and their aliases. Transcribes src/ulam/UlamKeyTypeSignature.cpp:136-160, include/CompilerState.h:89-96 and src/ulam/CompilerState.cpp: 268-279 (makeUlamTypeHolder), 281-403 (makeUlamTypeFromHolder), 446-474 (replaceUTIKeyAndAlias), 591-670 (makeUlamType), 731-757 (isDefined, anyDefinedUTI), 842-917 (counters, deleteUlamKeyTypeSignature), 1237-1266, 2312-2398 (aliases), 2400-2493 (setSizesOfNonClassAndArrays), 2081-2188 (setUTISizes), and UlamType.cpp:514-660 (isComplete, compare). Simplifications: std::map is a list of pairs searched with the equivalence std::map uses, neither less than the other; std::set<UTI> is a list without order, of which the least element is taken; what the symbol table of classes says (is the class of this index a template?) is a function given; diagnostics are left out; types are not freed. Removing a class name from the program's symbol table (CompilerState.cpp:301-357,455-462) is not modelled: that table is SymbolTable's concern (C43). Also cited: Constants.h, UlamKeyTypeSignature.h, UlamTypeClass.cpp, UlamTypeInternal.cpp.

* **UModModel.v**: the wrap-around counter of the standard library. Transcribes share/ulam/stdlib/UMod.ulam:22-73, function by function, in the numbers of StdNumModel. Simplifications: an object is the number in its one data member mVal; a parameter of type Self & stands for the number in it. The literal 1u is of type Unsigned(1), the literal 2 of type Int(3) (C52, NodeTerminal.cpp). 1u << deadbits is of type Unsigned(32) (Bits(32), NodeBinaryOpShiftLeft.cpp:34-42, as deadbits is Unary(16): C26), so that it is 2 to the power deadbits.

* **UTypeModel.v**: what the evaluator and the type checker look up about one type. A type here is the record of what the methods of UlamType return for it; the key (include/UlamKeyTypeSignature.h) carries name, bit size, array size, class instance and reference kind. Transcribes src/ulam/UlamType.cpp:444-517,756-768, UlamTypePrimitive.cpp:374-425, UlamTypeClass.cpp:300-305, UlamTypeClassElement.cpp:83-97, UlamTypeAtom.cpp:66-69, UlamTypeInternalPtr.cpp:18-21, CompilerState.cpp:2560-2577,6412-6415 and include/Constants.h.

* **VTableModel.v**: virtual tables. Transcribes src/ulam/NodeBlockClass.cpp:1488-1542 (calcMaxIndexOfVirtualFunctions), src/ulam/SymbolTableOfFunctions.cpp:167-217 (calcMaxIndexForVirtualTableOfFunctions), src/ulam/SymbolClass.cpp:1826-2070 (initVTable, updateVTable and the look-ups), src/ulam/SymbolFunction.cpp:571-672 (calcMaxIndexOfVirtualFunction) and src/ulam/CompilerState.cpp:4809-4984 (findOverrideMatching..., findOriginatingMatchingVirtualFunctionStrictlyByTypesInAncestorOf). A function is named by its class and its signature, a number that stands for its name and the types of its parameters; two functions match strictly by types exactly if the signatures are equal. Messages are left out but for the number of errors about conflicting originating declarations. A failed SYMBOL_ASSERT is None. D gives the finished tables of the classes done so far; a class waits (None) until all its bases are done.

* **ValueTextModel.v**: values of classes, arrays and members as they are written into the generated code and into the map of members. Transcribes src/ulam/SymbolWithValue.cpp:123-128, 193-212 (setValue, getInitValue, setInitValue), 394-434 (printPostfixValueArray), 595-688 (getClassValueAsHexString, getLexValueAsString, getHexValueAsString), src/ulam/CompilerState.cpp:1710-1728, 1865-1888, src/ulam/SymbolClass.cpp:663-675, src/ulam/NodeBlockClass.cpp:4162-4240 (default values in the generated code), src/ulam/NodeVarDecl.cpp:1453-1478, src/ulam/NodeConstantDef.cpp:1719-1735, 1843-1871, src/ulam/NodeListArrayInitialization.cpp:508-570, src/ulam/MapDataMemberDesc.cpp:7-15, 41-49, src/ulam/MapConstantDesc.cpp:6-10, 31-36 and src/ulam/File.cpp:59-90. Simplifications: the text of a declaration starts at its [; a value is ready; sizes over 8192, beyond the vector, are None. EXTERNAL: BitVector::ToArray, word i is the bits 32 i to 32 i + 31; for other operations see BitVec.v. Also cited: UlamType.cpp.

## Not modelled

* The C++ that the compiler writes, and its execution on the MFM simulator: except where a model file above says so (type
  and function names, loops, `?:`, `is`/`as`, returned references and values, reads and stores of data members, vtables,
  string tables), the generated text is not part of the model. No semantics of C++ is modelled; statements about the generated
  code are about the operations it names.
* The MFM library itself. The functions the generated code or the compiler call from it are marked EXTERNAL in the model and
  given their documented meaning.
* Class members defined by class constants, transients inside elements and other combinations that a model header lists as
  left out.
* The interpreter (`eval`, used by the compiler's own tests) except for the call stack, atoms, default values and the operators
  that constant folding shares with it.
* Documentation output (`-x`, structured comments), the `ulam` driver scripts in Perl, the culamtests and the Makefiles.
* Input and output: files are lists of bytes, and whether a file can be opened is a parameter.
* Memory: allocation never fails; deletion is modelled only where a dangling pointer is the point of the property (C95).
* Time and depth: the compiler's recursion is not limited in the model unless the code has a counter.

## Fuel and termination

Functions that are loops or mutual recursions in C++ take a fuel argument where Coq does not see that they end. Each such
property states that the fuel given is enough (for example C32 and C96: the parser ends on every sequence of tokens), so
running out of it is not a way to satisfy a theorem.

## Refutations

A theorem named `..._refuted` is the negation of the English claim, or of the part of it named in the note, with a concrete
witness computed in the model. They are claims about the code in `/repo` and were found by trying to prove the property. The
property is then listed as partial, next to the theorem for the region where it does hold.

## Wrong programs

`seeded/LOG.jsonl` has one line for each edit of a model definition that was tried: the definition, the edit, the claim it
breaks, the theorems that no longer compile, and the theorems that had to be tightened because they still did.

## Print Assumptions

The command stands after every theorem in its file, so the build prints the results. For each of the 708 theorems listed below it prints `Closed under the global context`: no axiom is used, of the standard library or otherwise.

* C01: C01_leximited_string_self_delimiting, C01_leximited_prefix_free, C01_leximited_concat_unique, C01_leximited_beyond_u32_refuted
* C02: C02_unsigned32_roundtrip, C02_unsigned64_roundtrip, C02_signed32_roundtrip, C02_signed64_roundtrip, C02_signed32_injective, C02_signed64_injective, C02_unsigned64_injective
* C03: C03_hexescape_roundtrip, C03_hexescape_visible, C03_hexescape_injective
* C04: C04_unsigned_constant_exact, C04_signed_constant_exact
* C05: C05_signed_literal_exact, C05_signed_literal_out_of_range, C05_unsigned_literal_exact, C05_unsigned_literal_out_of_range, C05_unsigned_negative_refuted, C05_unsigned_negative_ub_refuted, C05_prefix_without_digits_refuted, C05_high_byte_terminates_refuted
* C06: C06_representable_accepted_partial, C06_unrepresentable_accepted_refuted, C06_unsigned_sizes_abort_refuted
* C07: C07_interning, C07_interning_stable
* C08: C08_user_string_table
* C09: C09_quoted_rendering_refuted, C09_quoted_rendering_partial
* C10: C10_line_and_byte, C10_positions_increase, C10_long_line_refuted, C10_many_lines_refuted
* C11: C11_bytes_delivered, C11_positions, C11_load_splices, C11_reload_of_open_file_refuted, C11_position_after_empty_file_refuted
* C12: C12_longest_operator_partial, C12_longest_operator_refuted
* C13: C13_skipped_partial, C13_inserted_partial, C13_one_byte_ahead, C13_skipped_refuted
* C14: C14_keywords, C14_keywords_distinct, C14_identifiers_partial, C14_words_whole, C14_odd_word_refuted, C14_flags, C14_inserts
* C15: C15_put_get, C15_put_get_long, C15_get_is_field, C15_immediate
* C16: C16_put_frame, C16_disjoint, C16_store_frame, C16_array_store_frame
* C17: C17_item_pointer, C17_store_load, C17_whole_array_load_partial, C17_whole_array_load_refuted, C17_copy_array_partial, C17_copy_quark_array_refuted, C17_stack_store_partial, C17_stack_store_refuted
* C18: C18_packed_default, C18_big_default
* C19: C19_call_leaves_caller_alone, C19_call_sequence_restores_stack
* C20: C20_store_then_load, C20_other_slots_unchanged, C20_store_changes_one_place, C20_assign_changes_one_place, C20_local_slots
* C21: C21_coord_index_coord, C21_index_coord_index, C21_header_comment_refuted
* C22: C22_store_accepted_iff_in_window, C22_load_gives_last_store, C22_assign_changes_one_site, C22_assign_field, C22_bounds_check_accepts_window, C22_bounds_check_refuted
* C23: C23_safe_cast_keeps_number, C23_safe_cast_exact, C23_bits_there_and_back
* C24: C24_maxof, C24_minof
* C25: C25_result_type_holds_result, C25_quotient_type_holds_quotient, C25_remainder_type_holds_remainder, C25_result_type_refuted, C25_negation_partial
* C26: C26_shift_left_size, C26_shift_right_size, C26_shift_left_size_refuted
* C27: C27_type_names_distinct, C27_class_names_distinct, C27_class_is_not_plain, C27_unknown_array_size_refuted
* C28: C28_strings_partial, C28_empty_string_refuted, C28_function_names_distinct
* C29: C29_strict_total_order, C29_map_lookup
* C30: C30_index_denotes_key, C30_keys_keep_apart, C30_index_keeps_key, C30_same_index_again, C30_class_own_index, C30_set_key_denotes, C30_same_index_refuted, C30_class_index_refuted
* C31: C31_completed_holder, C31_replaced_stands_for_new, C31_resolves_to_root, C31_short_chains_resolve, C31_updates_keep_range, C31_long_chain_refuted, C31_cycle_refuted
* C32: C32_walk, C32_ancestors, C32_breadth_first_by_distance, C32_depth_first
* C33: C33_subclass, C33_subclass_acyclic, C33_nearest, C33_is_bits, C33_incomplete_refuted
* C34: C34_accepted, C34_stack, C34_labels, C34_numbers, C34_code, C34_turns, C34_unused_label_refuted
* C35: C35_types, C35_capacity, C35_exhausted
* C36: C36_counts, C36_written, C36_once, C36_error_shown
* C37: C37_layout, C37_duplicate, C37_own_position, C37_only_ancestors_inside
* C38: C38_members_partial, C38_bases_at_front, C38_refuted
* C39: C39_never_fails, C39_parts, C39_slots, C39_owned
* C40: C40_class, C40_never_null, C40_calls_partial, C40_one_class, C40_ambiguity_refuted, C40_exact_refuted
* C41: C41_grammar_partial, C41_printed, C41_local_refuted, C41_is_refuted, C41_wrap_refuted
* C42: C42_refuted, C42_delete_refuted, C42_partial, C42_alternating_partial
* C43: C43_map, C43_owners, C43_no_dangling, C43_rejected, C43_lookup, C43_listing, C43_no_leak, C43_assign_refuted, C43_leak_refuted, C43_self_replace_refuted, C43_silent_refuted
* C44: C44_accepted_is_ulam_file, C44_ulam_file_accepted_partial, C44_repeated_suffix_refuted
* C45: C45_compare_decides, C45_internal_never_complete, C45_equivalence, C45_dont_know, C45_symmetric, C45_wild_decides
* C46: C46_limit_partial, C46_accepted_modulo, C46_limit_refuted, C46_class_limit
* C47: C47_names, C47_names_distinct, C47_only_those, C47_operator_read
* C48: C48_only_the_count_matters, C48_every_count
* C49: C49_valid_user_string_index_refuted, C49_registered_index_valid_partial, C49_accepted_partial
* C50: C50_source_lines_partial, C50_unterminated_line_refuted, C50_loaded_twice_refuted
* C51: C51_load_past_end, C51_negative_load_refuted, C51_store_refuted, C51_store_past_end_partial, C51_store_wrap_refuted
* C52: C52_literal_accepted_iff_representable, C52_literal_to_bool, C52_literal_keeps_its_number, C52_literal_type_holds_number
* C53: C53_folding_gives_nearest, C53_no_division_by_zero
* C54: C54_instances_with_strings, C54_instances_told_apart, C54_class_constants_refuted, C54_string_arrays_refuted
* C55: C55_string, C55_string_only, C55_char, C55_char_only, C55_unique
* C56: C56_number, C56_number_only_partial, C56_bare_prefix_refuted, C56_fraction
* C57: C57_dispatch_partial, C57_final, C57_conflicts, C57_abstract, C57_refuted
* C58: C58_eval_partial, C58_agree_partial, C58_for_continue_refuted, C58_switch_break_refuted
* C59: C59_result, C59_exit_refuted, C59_exit_partial
* C60: C60_ends, C60_fuel
* C61: C61_refuted, C61_tokens_partial
* C62: C62_exact, C62_never, C62_sized_partial, C62_loop_partial, C62_refuted, C62_depth_refuted
* C63: C63_numbers_compare_truly, C63_bools_compare_truly, C63_bits_compare_truly, C63_others_are_errors
* C64: C64_bitwise_acts_bit_by_bit, C64_complement_flips_each_bit, C64_bang_negates, C64_bang_refused, C64_shift_distance_checked, C64_shift_left_moves_bits, C64_shift_left_multiplies, C64_shift_right_moves_bits_partial, C64_shift_right_refuted, C64_unknown
* C65: C65_same_end, C65_same_value, C65_operand_order_refuted, C65_store_order_refuted, C65_argument_order_refuted, C65_if_branches, C65_branch_agrees, C65_condition_refuted, C65_loop_refuted, C65_wide_and_refuted, C65_short_circuit, C65_not_short_circuit, C65_and_value_refuted
* C66: C66_read_item, C66_store_item, C66_gen_item, C66_read_unsigned, C66_read_small, C66_gen_unsigned, C66_unsigned_same, C66_string_same, C66_string_in_bounds, C66_string_byte, C66_constant_exact, C66_constant_item, C66_read_negative_refuted, C66_read_negative_abort_refuted, C66_read_negative_exact, C66_read_wide_refuted, C66_store_refuted, C66_store_slots_exact, C66_store_word_exact, C66_store_word_partial, C66_store_word_refuted, C66_store_wide_refuted, C66_gen_signed_exact, C66_gen_negative, C66_gen_negative_refuted, C66_string_negative_refuted, C66_constant_refuted, C66_constant_negative_refuted, C66_constant_eval
* C67: C67_default, C67_determined, C67_union
* C69: C69_numbers, C69_classes, C69_too_many, C69_constant_empty, C69_empty_list_refuted
* C70: C70_list, C70_variable, C70_accepted, C70_determined, C70_twice, C70_stranger
* C68: C68_class_value, C68_array_value, C68_list_value, C68_packed_value, C68_default, C68_default_quark, C68_map_value, C68_map_element, C68_map_element_refuted, C68_map_injective
* C71: C71_identifier_partial, C71_identifier, C71_one_declaration, C71_member, C71_class_or_ancestor, C71_unhidden, C71_most_specific_single, C71_shadow, C71_typedef, C71_constants_only, C71_most_specific_refuted, C71_typedef_ambiguity_refuted, C71_later_constant_refuted
* C72: C72_reads_partial, C72_unique, C72_only_partial, C72_ends, C72_which, C72_lost_refuted, C72_fault_refuted, C72_as_refuted, C72_published_refuted
* C73: C73_exact_partial, C73_plain_duplicates, C73_quiet, C73_virtual_refuted, C73_parsing
* C74: C74_nearest, C74_truth, C74_bits, C74_accepted, C74_same_conversion, C74_same_conversion_all, C74_string_refuted, C74_void, C74_string
* C75: C75_exact_partial, C75_one_program, C75_cycle, C75_unread, C75_version_refuted, C75_name_refuted, C75_interrupted_refuted, C75_fault_refuted, C75_first_refuted, C75_unread_refuted
* C76: C76_arith, C76_step, C76_numbers_only, C76_bits, C76_bits_refused, C76_shift_by, C76_shift_partial, C76_same_call, C76_same_shift_partial, C76_shift_refuted, C76_zero_refuted
* C77: C77_is, C77_as_partial, C77_as_transient_refuted, C77_as_transient_partial, C77_as_position_partial, C77_as_position_refuted, C77_as_refusal, C77_as_acceptance, C77_getrelpos, C77_generated, C77_agree
* C78: C78_numbers, C78_stable, C78_given, C78_serve
* C79: C79_implicit_sound, C79_implicit_complete, C79_implicit_atom, C79_explicit_class, C79_explicit_possible, C79_explicit_refused_partial, C79_explicit_to_atom, C79_explicit_from_atom, C79_const_refuted, C79_evaluator_partial, C79_evaluator_refuses, C79_evaluator_atom, C79_evaluator_refuted, C79_evaluator_atom_refuted, C79_generated, C79_guard_refuted, C79_generated_value, C79_generated_atom
* C80: C80_extract, C80_cast, C80_union_refuted
* C81: C81_apart_partial, C81_doubling_refuted, C81_wrap_refuted
* C82: C82_places, C82_entry, C82_apart, C82_super_refuted
* C83: C83_partial, C83_recursion_refuted
* C84: C84_selection, C84_checked_partial, C84_evaluated_partial, C84_generated_partial, C84_choice_refuted, C84_constref_refuted, C84_named_refuted, C84_cast_refuted, C84_cast_constref, C84_cast_named, C84_inner, C84_atomof_refuted
* C85: C85_call, C85_stored_partial, C85_assignment_refuted, C85_value_refuted
* C86: C86_call_partial, C86_partial, C86_check, C86_refuted
* C87: C87_missing, C87_nobody, C87_always_partial, C87_path_refuted, C87_unreached_refuted, C87_value, C87_literal, C87_literal_value, C87_exact, C87_void
* C88: C88_cycle_partial, C88_range_refuted, C88_order, C88_ahead_partial, C88_two_bits_refuted, C88_dead_refuted, C88_dead_both_greater, C88_outside_partial, C88_postfix_refuted
* C89: C89_scanner, C89_scanner_sum_refuted, C89_max_partial, C89_max_refuted, C89_rescan_refuted, C89_services_partial, C89_services_refuted, C89_extreme, C89_ties_partial, C89_ties_refuted, C89_count_partial
* C90: C90_between_partial, C90_between_refuted, C90_odds, C90_timer_partial, C90_rtimer_partial, C90_trigger_refuted, C90_trigger_partial, C90_once
* C91: C91_crc, C91_detect, C91_update, C91_valid, C91_corrupt, C91_short_refuted
* C92: C92_queue, C92_reset, C92_reread, C92_rewrite_refuted, C92_print_unsigned, C92_base, C92_print_int, C92_numeral_unique, C92_copy, C92_copy_refuted, C92_print_bool
* C93: C93_distinct, C93_tmp, C93_user
* C94: C94_value, C94_accept, C94_condition, C94_bits, C94_unary_refuted, C94_bool_refuted, C94_fold
* C95: C95_names, C95_not_early, C95_choice, C95_value, C95_dangling_refuted, C95_early_refuted
* C96: C96_reads_partial, C96_unique, C96_only_partial, C96_ends, C96_comma_refuted, C96_native_refuted, C96_local_refuted, C96_concrete_refuted, C96_fault_refuted
* C97: C97_values, C97_order, C97_circular, C97_accepts, C97_limit_refuted
* C98: C98_accepts, C98_body_partial, C98_temporary_refuted
* C99: C99_outer_partial, C99_others, C99_unused, C99_argument_refuted
* C100: C100_arithmetic, C100_divide, C100_signs, C100_manhattan, C100_length, C100_dot_partial, C100_square_refuted, C100_dot_refuted, C100_onebit_refuted, C100_area, C100_bounds, C100_clamp, C100_contains, C100_take, C100_neighbors, C100_corners
* C101: C101_params, C101_params_good, C101_args, C101_same, C101_values, C101_no_abort, C101_ready, C101_comma_refuted
* C102: C102_sites, C102_literals, C102_degrees_scale, C102_angle_partial, C102_opposite_refuted, C102_range, C102_cw, C102_sqrt
* C103: C103_color, C103_color_int, C103_color_rgb, C103_between, C103_ends, C103_modify, C103_alpha_refuted, C103_dimmer, C103_brighter, C103_white, C103_black, C103_back, C103_brighter_refuted
* C104: C104_scalar, C104_possible, C104_default, C104_wide_refuted, C104_string_refuted, C104_array_partial, C104_minus2_refuted, C104_wide_array_refuted, C104_member
* C105: C105_no_abort, C105_same, C105_alias, C105_stable, C105_round, C105_waits, C105_few_uses, C105_circular_refuted
* C106: C106_accepts, C106_only_partial, C106_o_refuted, C106_i_refuted, C106_undefined, C106_search, C106_absolute, C106_output
* C107: C107_dup, C107_size, C107_documented_refuted
* C108: C108_own, C108_apart, C108_logical, C108_no_assert, C108_assign_value, C108_assign, C108_index, C108_waits, C108_waits_here
* C109: C109_save, C109_restore, C109_radius, C109_fresh, C109_save_all, C109_turned, C109_symmetry_refuted
* C110: C110_prints, C110_short, C110_lone, C110_no_overrun, C110_plain, C110_zero_refuted, C110_number, C110_number_refuted, C110_unary, C110_unknown, C110_unsuited, C110_class, C110_string_only, C110_call, C110_refused, C110_as_refuted
* C111: C111_write, C111_memory, C111_disk, C111_disk_refuted, C111_read, C111_refused, C111_closed_refuted, C111_close, C111_decimal, C111_unsigned, C111_unsigned_refuted, C111_buffers, C111_tag, C111_path, C111_open, C111_behind, C111_extend_refuted, C111_add, C111_add_refuted, C111_get, C111_get_refuted
* C112: C112_whole, C112_moves, C112_creates, C112_destroys, C112_dreg, C112_dreg_refuted, C112_conserve, C112_copies, C112_fx
* C113: C113_default, C113_use, C113_changed, C113_bits, C113_bool, C113_unsuited, C113_unary_bits, C113_unary_bits_refuted, C113_bool_bits
* C114: C114_starves, C114_eats, C114_wanders, C114_hunger, C114_unfed, C114_balance, C114_plant
* C115: C115_trigger, C115_fires, C115_recovers, C115_rests, C115_armed, C115_spark, C115_evaporates
