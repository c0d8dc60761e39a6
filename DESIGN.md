# Formal model of bus1/sys in Rocq (Coq 8.16.1)

The model lives in `rocq/theories`, logical name `Verif`. `properties.jsonl`
lists the properties, `MANIFEST.json` maps each of them to theorem names.

## Layout

Each area of the code has up to four files:

| suffix     | content |
|------------|---------|
| `*Model.v` | Gallina transcription of the code, one definition per function, each with a comment citing file and lines. No proofs. |
| `*Spec.v`  | The independent specification: standards, grammars, mathematical objects. Does not import the model. |
| `*Proofs.v`| Lemmas. |
| `*Props.v` | Only the property theorems (each closed by `exact`), the `Example`s showing that their hypotheses are met, and `Print Assumptions`. |

## Modelling conventions

* A function that mutates through `&mut` returns the new value. A panic
  (failed assertion, checked arithmetic, out-of-bounds index, `unwrap` on
  `None`, `unreachable!`) is an explicit error value, never a default.
* Integers are `N` (or `Z`). Where the code wraps, the model writes
  `mod 2^k`; where it is checked, the model returns the panic value.
  `usize` is 64 bit.
* Bytes are `N` below 256; theorems state that as a hypothesis where it
  matters. Characters are `N` code points.
* A loop becomes structural recursion, or recursion on explicit fuel whose
  exhaustion is a separate result value that theorems exclude or describe
  (non-termination findings).
* A property that the faithful model violates is proved as
  `..._refuted : exists ...` with a concrete witness, next to the strongest
  positive version that holds.

## Wrong programs

`seeded/LOG.jsonl` has one line per deliberate bug that was put into a scratch
copy of the model. `theorems_failed` names the theorems (or supporting lemmas)
whose proofs broke. `props_files_rejected` names all `*Props.v` files that no
longer build. That includes files that merely import a file with a broken lemma,
so the latter list may name properties the bug does not concern. Edits
that only broke typing are not logged. A script made further edits (swapped
arguments, changed constants and comparisons). Of those that were rejected only
the ones that were read and found to make a claim false are logged: a
proof may also break because of an edit that changes nothing.

## Plan per property

| id | modelled | proof |
|----|----------|-------|
| C01-C03 | `sha256.rs` complete: constants, rounds with the in-place 16-word schedule, engine state (hash, chunk, remaining, total). | FIPS 180-4 written as spec (64-word schedule, padding of the whole message, fold over blocks). Refinement: state after any history abstracts to the byte string pushed since the last reset. Invariant by induction over calls. |
| C04-C05 | `hmac.rs` over any engine given by its operations (record), instantiated with SHA-256. | RFC 2104 as spec; refinement by induction over calls. |
| C06 | `Hash::to_hex`. | Decode function as spec, round trip. |
| C07-C12, C53-C55 | `rng.rs` complete. | Explicit inverses for the mixers; gamma odd generates Z/2^64; Xoshiro step as GF(2)-linear map: annihilating polynomial checked on a basis by `vm_compute`, jump polynomials as `x^(2^k)` modulo it; period by order computation with primality certificates. |
| C13-C17, C19 | `element.rs` table, `signature.rs` parser over an abstract node array, `Node8` and `Node64` field ranges and bit patterns. | Inductive grammar of complete types as spec. Parser simulation over a type tree with explicit container stack; every error branch characterised. |
| C18 | as above. | Structural recursion for alignment and size as spec. |
| C20-C22 | `Sig::len`, `Cursor`, `Sig::at`. | From the structure metadata. |
| C23-C26, C56 | `dvar.rs` encoder and decoder over an abstract buffer, levels and stack. | Wire format as structural recursion over (type, value); simulation of the call sequence a value induces; an abstract machine of types for arbitrary call histories. |
| C27-C29 | `io/map.rs` with the chunking of the underlying object as an oracle function. | Loop invariants for every oracle. |
| C30, C57 | `io/stream.rs`, with the reader given by any function meeting its contract, and the growth of the vector arbitrary. | Loop invariants; induction over writes. |
| C31-C36 | `osi/json/token.rs` complete; handler as a function returning continue/break. | State invariant; token grammar as spec; simulation. |
| C37-C39, C58-C61 | `tmp/fmt/json/token.rs`. | Scanner as an equivalent character machine; chunking by simulation; grammar of lexemes as spec. |
| C40-C41, C62-C64 | `tmp/fmt/json/stream.rs`. | Pushdown automaton; language as an inductive grammar. |
| C42-C45 | `args/layout.rs`, `args/parse.rs`. | Commands as a path set; selection and lookup specified on paths. |
| C46-C48 | `str.rs`; Unicode classes as arbitrary predicates that agree with ASCII. | Lexicographic composition of total orders. |
| C49-C50 | `msdosmz.rs`: `sum16`, structures and codecs, `STUB_X86`. | Word-sum spec, field tables as spec, general lemmas about gapless structures. |
| C51, C65-C67 | `mem.rs` (byte swapping, copies), `endian.rs`, `integer.rs`, `packed.rs`, `pointer.rs` over a model of `repr(C)` layout and of memory as bytes that may be uninitialised. | Byte images for any width and both host orders. |
| C52, C69 | `ptr.rs` `NonNull4`, `meta.rs`. | Bit-level lemmas, induction over updates; arithmetic modulo 2^w. |
| C68, C70 | structures of `msdosmz.rs`, `pecoff.rs`, `elf.rs`; all PE constants. | Evaluation of the layout rules on every host (all alignments dividing the sizes), compared with tables written from the format specifications. |
| C71-C73 | `report.rs`: all report objects, the error list, arbitrary parser reports. | On top of `args_parse`: induction over the reports; what an object holds is determined by the uses of its flags. |
| C74-C75 | `help.rs`: the calls made on the writer, `try_help`. | Commands below a command are a contiguous part of the sorted layout. |
| C76 | `abi.rs`: all ABI modules, declarations as nested structures. | Relational specification of C layout (`AbiSpec.lays`), shown deterministic; nested induction over declarations. |
| C77 | `common/errno.rs` as a table, `num`. | Table equality by computation; images by the theorems on byte order. |
| C78 | The integer constants of `elf.rs` as a table. | Comparison with the table of `elf.h` by computation. |
| C79 | `convert.rs`, `OnceRef`; heap with counted allocations, arbitrary allocator. | Forward simulation between the rules of ownership (`OwnSpec.step`) and the machine; permutation of created and destroyed values. |
| C80 | `Identity`, `Ptr`, `OnceRef`, `Mown` comparisons. | Order of addresses; the simulation of C79 for `OnceRef`. |
| C81 | `error.rs` on an arbitrary formatter. | Non-interference by cases; texts by computation. |
| C82 | `compat.rs`, with `write_all` and `write_fmt` of the standard library on an arbitrary device. | Induction over the calls of the device with a ghost record of what it received. |
| C83 | `align.rs`: `Aligned` for all its types, `AlignAs`, `AlignOf`. | Induction over types, layout rules of `LayModel.v`. |
| C84 | `ende.rs`. | Computation on top of the signature and DVar models. |
| C85 | `mem.rs` on memory with addresses; undefined behaviour is an explicit outcome. | Separation of a fresh local variable from the object; induction over byte ranges; divisibility of powers of two. |
| C86 | `bswap_copy`, `bswap_slow`, on both byte orders. | Loop invariant of the slow path; conversion of integers from `FfiProofs.v`. |
| C87 | The expansion of `cond!`. | Induction over the branches with the accumulated conditions generalised. |
| C88 | The types of `marker.rs` and `test.rs` in a model of Rust subtyping with lifetimes and `for<'a>`. | Inversion of the subtype relation, which is shown to be a preorder (cut elimination). |
| C89 | `Id`, `Unique`. | Inversion; induction over subtype derivations. |
| C90 | Safe programs over `unique`, `Id::from`, copies and moves. | Invariant over all programs. |
| C91 | `Integer` and `Pointer` in any nesting, on the layouts of `LayModel.v`. | Induction over the nesting with the padding generalised. |
| C92 | The encoder with an arbitrary `Write` and calls that go on after errors (`history` in `DvarTyping.v`). | Induction over the calls that describe the value; failed calls change only bytes past the position and the length of the open array, dropped sub-encoders only bytes past the position (`DvarSubs.v`). |
| C93 | The conditional aliases of `abi.rs`, `impl_platform!`, the `libc` module; a target is what rustc says of it. | Case analysis on the names of architectures; layouts from C76, error numbers from C77. |
| C94 | `rng.rs`; specification `RngRef.v` from the articles: closed form for SplitMix64, matrix for Xoshiro256++. | Induction over the calls with the position generalised; bits of rotations. |
| C95 | `next64` of Xoshiro256++. | The state is computed back from three outputs and one word; with the single cycle of C11 this enumerates positions. |
| C96 | `jump192`, `jump128`. | Positions in the cycle of C11. |
| C97 | `Send`, `Sync`, `Copy` of `Ptr` and `OnceRef`; what safe code and documented uses of unsafe functions do with pointers; the borrow checker by parent links (`ThreadModel.v`). | Invariant over programs: exclusive pointers have no others beside them that do not borrow from them. |
| C98 | `new`, `arc`, `try_make`, `make`, the macros and `clone` over the parser of C16, with memory that is not initialised (`DbusMakeModel.v`). | The parser in a buffer of any size, by induction over the text; what is reported does not depend on what follows. |
| C99 | `pin::as_ptr`, `as_mut_ptr`, `nonnull_from_pin_ref`, `nonnull_from_pin_mut`, `OnceRef::pin_from_*` and `into_ptr` over the heap of C79 (`PinModel.v`). | The relation of C79 between the rules of ownership and the heap; what dropping the pointer does to its object. |
| C100 | Iterators, indices, searches and links of layouts, and assignments through the mutable references they give out (`LayoutModel.v`); sorting and searching by their documented contracts, and the binary search of the standard library. | Order of paths of C42; induction over the links; loop invariant of the binary search; induction over edits. |
| C101 | The mapped I/O model of C27-C29 (`IoMapModel.v`). | Case analysis of the bounds; the error is a function of the arguments that the theorem states. |
| C102 | Node structs, casts of the `u64` words to nodes, the parser and the accessors on words, for both byte orders (`DbusWordModel.v`, `DbusWordParse.v`). | Store/load round trip; every step of the word parser simulates the step of the node parser (`DbusWordSim.v`); monotonicity in the initialised words (`DbusWordMono.v`). |
| C103 | The tokenizer of C37-C39 (`TokModel.v`). | A token that is no error ends in a state with the length to consume; case analysis of `complete` under the invariant of C58. |
| C104 | `Pointer` on the nested objects of C91 (`FixPtrModel.v`): conversions, casts, access, updates. | From C91 for native nestings; induction over casts and over updates; the value of a non-zero type in any memory. |
| C105 | The values of markers, the trait implementations and the derived ones of structures that hold markers (`MarkModel.v`). | A type has one value, by induction over it; induction over the fields of a structure. |
| C106 | `Display` and `Debug` on the nested objects of C91 (`ShowModel.v`); decimal texts are those of Coq's library. | Induction over the nesting; decimal texts can be read back. |
| C107 | The field types of `NonNull4`, `Ptr`, `OnceRef`, `Pointer` and `Mown` in the subtyping model of C88 (`VarModel.v`). | Inversion of subtyping; transitivity. |
| C108 | The decoder of `DvarModel.v` on arbitrary bytes; values in a message by the inductive relation `reads` of `DvarDecSpec.v`. | The calls that succeeded follow the machine of types; dropped derived decoders are removed from the history; induction over the value. |
| C109 | The layout and parser of `ArgsModel.v`; no assumption that paths or names differ. | The links lead to smaller indices; the cursor is at the first command at or below the path entered; induction over the arguments. |
| C110 | The parser and the `Hash` of `DbusSigModel.v`. | The grammar is prefix-free (induction over types); induction over the sequence. |
| C111 | `field_of`, `field_of_mut` on a flat memory in `FieldModel.v`; the rules for references as a check that can fail; layouts as an abstract predicate in `FieldSpec.v`. | Arithmetic on addresses; induction over the bytes assigned; induction over the members for `repr(C)`. |
| C112 | The public methods of `Element` (`ElemModel.v`) on the table and the packed flags of `DbusElement.v` and `DbusFlagBits.v`. | Case analysis over elements against `print` of every type; bit arithmetic for masks. |
| C113 | `Packed` as objects in byte memory (`PackModel.v`), with the layout of `FfiModel.v`; an access of known alignment at another address is undefined. | Refinement to a list of values (`PackSpec.v`), by induction over the calls. |
| C114 | Values of `PhantomInvariant`, `PhantomInvariantLifetime`, `Id` and `Unique` (`PhanModel.v`) within objects of nested structures with derived traits. | Induction over objects: derived traits equal those of the list of data. |
| C115 | `OsStr::to_string_lossy` with the standard library's chunk loop (`LossyModel.v`), against substitution of maximal subparts (`LossySpec.v`). | The pass over one character is exact for encodings of scalar values and finds the longest start of one; the specification is deterministic; induction over it. |
| C116 | `Shared` over `Cell` and `RefCell` for arbitrary implementations of `FlagReport` (`ShareModel.v`). | Induction over the reports, against objects told directly; the library's types tie in with C71 to C75. |
| C117 | The macro `coerce_unsafe!` with the coercions of Rust (`PolModel.v`); the choice of the block is `cond!` of C87. | Induction over chains of coercions; counterexample for deref coercions. |
| C118 | `token.rs` of `tmp`: the model of C37. | An invariant of every step: what a step reports has the text that it marks as done; then induction over histories. |
| C119 | `STUB_X86` of `msdosmz.rs` (`FmtModel.v`) run by a specification of the 8086, MS-DOS and its loader (`DosSpec.v`). | Symbolic execution of the seven instructions with arbitrary interference between them; the stack is kept apart from the code by arithmetic. |
| C120 | Both tokenizers: the models of C31 and C37. | The grammar of one specification is translated to that of the other (`JsonAgree.v`), then the characterizations of C34 and C59. That the last token is not reported early: the text is continued in two ways. |
| C121 | The document decoder of C40. | Errors leave the state unchanged (every case of the transition table); induction over the tokens, with the accepted ones so far; `doc_language_partial` says what can be accepted. |
| C122 | The streaming decoder of C37. | Bisimulation: between tokens, all that is left of the past is an index that is set before it is used. |
| C123 | The streaming decoder of C37. | Every sequence of bytes is split into lexemes by recursion on its length; the positions within strings (C38) also carry the text since the last escape, so that no string is excluded; strings that are not closed by the same induction with another end. |
| C124 | The derived implementations of OsStr: comparisons of slices, decimal debug output in both forms. | Induction on the strings; characters are compared by cases on the number of bytes with integer arithmetic; debug output is read back. |
| C125 | The derived comparisons of the three generators. | A shorter period of the output would divide 2^256 - 1, and an odd number would divide the number of positions of a value, which is 2^192 (C95); states are on a single cycle (C11). SplitMix64 by inverting the mixing function. |
| C126 | The encoder of C23 and C92, and a separate specification of what the bytes leave out (DvarLossSpec.v). | The wire format is prefix free, by induction over the value; calls determine the value, by induction over the calls; then C92. |
| C127 | The argument parser of C42 and the reports of C71. | Runs are sequences of steps; steps for flags neither enter a command nor end the selection, so they can be exchanged with others; what objects hold follows from C71 to C73. |
| C128 | The streaming tokenizer and document decoder of C37 and C40. | In the specification of C123 only the first character after a lexeme matters, and white space ends every lexeme, or is joined with it; by induction over the lexemes, then C123 and C121. |
| C129 | The comparison of C46. | The segments of two strings agree up to the one that holds the first difference; by strong induction over what the strings have in common, for each way they can differ. The order so specified is total, which gives the other direction. |
| C130 | The engine of C01 and HMAC of C04. | The blocks of a padded message determine the message, and the last one its length; backwards over the blocks of two messages with the same digest. |
| C131 | The decoder of C24 on byte slices. | For every call: it computes the same until it reads, and a read gives the same bytes or fails; nothing is stored before the last read has succeeded. By induction over the calls, then C24 for cut values. |
| C132 | The signatures of C18 and C19 together with the encoder of C23 and C92. | Induction over values: positions modulo 8 suffice, padding comes first. Induction over types that are not dynamic: the size of the wire format is the size of C18. With C92 for the committed bytes. |
| C133 | The generators of C07 to C12. | Generators that return the same numbers are equal by C125; seeding replaces zero only; the numbers a SplitMix64 generator returns are different by C07. |
| C134 | The flags of the signatures of C19 together with the wire format of C23. | Induction over types: without the mark the format is invariant under moving by the alignment; with it, a value is built that differs at positions 0 and 4. The flag is read off the characterization of parsed signatures. |
| C135 | The encoder of C23 and C92 in both byte orders. | Small specification of turned integers; induction over values relates the two wire formats, C92 and C126 give the committed bytes. |
| C136 | The methods of C27, called again after failures. | Induction over the attempts, with the effect of each call from C27. |
| C137 | The decoder of C24 and C56 over arbitrary bytes. | What can be read in a message (the relation of C108) is accepted, by induction over the calls; the converse is C108 with C126. Four messages that should be rejected. |
| C138 | The decoder of C24 and C56, and the loop of a client as a relation. | By induction over the elements, with the lemma of C56 for each of them. |
## What is modelled, with which simplifications

* **Hashes** (`hash.rs`, `hash/sha256.rs`, `hmac.rs`): everything but trait
  plumbing (`AsRef`, `Debug`).
* **Random numbers** (`rng.rs`): everything.
* **D-Bus** (`element.rs`, `signature.rs`, `dvar.rs`): everything but
  formatting of errors. A signature is the text with its node array. Vectors
  grow without failing; the decoder allocates the announced length of a string
  before reading it, which is a memory-exhaustion risk the model does not show.
* **Mapped and streamed I/O** (`io/map.rs`, `io/stream.rs`): the chunk a
  reader or writer maps is an arbitrary function of the request that meets its
  documented contract; predicates given to `read_map_while` are pure.
  `usize` overflow of positions is out of scope in the stream part.
* **JSON, osi** (`json/token.rs`): everything. The handler is any function of
  the history.
* **JSON, tmp** (`fmt/json/token.rs`, `stream.rs`): everything except the
  position inside `Utf8Error` and the capacity of the accumulators; integer
  overflow at 2^64 bytes of input is out of scope. Readers keep buffered data
  between calls.
* **Arguments** (`args/layout.rs`, `args/parse.rs`): everything the parser
  does. Sorting is any sorted permutation and binary search any function
  meeting the contract of the standard library. Command paths are distinct.
* **Strings** (`str.rs`): a string is the list of its code points; the standard
  library compares UTF-8 bytes, which is the same order (`str_cmp_utf8`).
* **Foreign-function types** (`ffi/*.rs`, `mem.rs`, `align.rs`): the layout
  rules of `repr(C)`, `packed`, `align` and `transparent` are those of the Rust
  reference, written down in `LayModel.v`; integers are two's complement in
  host byte order. `NEEDS_SWAP` is modelled once, the source repeats it for 24
  types.
* **Tagged pointers** (`ptr.rs`: `NonNull4`), **meta.rs**: pointers are
  addresses. A shift by too many bits panics (debug assertions on).
* **Formats** (`msdosmz.rs`, `pecoff.rs`, `elf.rs`): structures, functions, the
  constants of PE and ELF, and the stub. MS-DOS, its loader and the processor are
  specified in `DosSpec.v` as far as the stub needs them: processor flags,
  instructions the stub does not use and all but two services are left out.
* **Argument reports and help** (`args/report.rs`, `args/help.rs`): all types
  that implement the report traits. `&str`, `String` and their boxed forms are
  the same value; objects are numbered, so sharing is having the same number;
  panics of a `RefCell` borrowed by the caller are not modelled. Objects belong
  to a path and a name, so theorems are for layouts with distinct names.
* **Platform ABIs and constants** (`abi.rs`, `common/errno.rs`, constants of
  `elf.rs`): the tables are generated from the sources, as is the specification
  from the Linux and ELF headers; what is not in these headers is specified by
  hand. Floating-point types have a layout but no
  values. For the `libc` module see C93.
* **Ownership** (`convert.rs`, `pin.rs`, `ptr.rs`: `OnceRef` and `Ptr`, `cmp.rs`,
  `mown.rs`): addresses are numbers, `Rc` and `Arc` keep a header before their
  object, the allocator is any function that does not hand out memory in use.
  Aliasing rules, weak pointers and counter overflow are not modelled.
* **Errors, compatibility, markers, generic coders** (`error.rs`, `compat.rs`,
  `align.rs`, `ende.rs`): formatters and devices are arbitrary functions; the
  default methods of `std::io::Write` are modelled from their documentation;
  lossy conversion (C115) is modelled from the code of the standard library;
  the traits of markers and brands are C114.
* **Raw memory** (`mem.rs`): memory maps addresses to bytes with or without
  a value.  Out of bounds access, unaligned access and references to bytes
  without a value are outcomes of their own (`None`) that theorems exclude.
  Integers are stored by value; provenance is not modelled.
* **Configuration** (`cfg.rs`): the expansion of `cond!` into blocks with
  conditions.  How a macro parses its arguments is not modelled.
* **Variance and brands** (`marker.rs`, `brand.rs`, the types of `test.rs`): the
  subtype rules of the Rust reference for references, function pointers with
  `for<'a>`, raw pointers, arrays and structures of one field.  Values with
  a brand are modelled by what safe code can do with them.  Their derived traits
  are C114.
* **Platform selection** (`abi.rs` 190-220, `linux/mod.rs`, `linux/libc`): which
  modules exist for a target and what they are compiled with.  The types and
  numbers of crate libc are taken from its documentation; that rustc finds the
  source files is not modelled.
* **Threads** (`ptr.rs` 330-345, 524-531): the markers as conditions for moving
  and lending a pointer; programs are sequences of steps of all threads.  The
  markers of the pointers of the standard library are taken from its
  documentation.  Mutable reborrowing and `as_mut` are not modelled.
Not modelled: pointer provenance, aliasing, `never.rs`,
allocation failure, the `libc` module of `lib/sys`. These are
type-system or compiler-level facts that an executable functional model cannot
express, or data without behaviour.

## Findings

Statements a user would rely on that are false of the code; each is a theorem
with the suffix `_refuted` (name in parentheses) beside the strongest version
that holds.

1. SHA-256 `finalize` panics whenever the message length is 63 modulo 64
   (`sha256_streaming_refuted`); HMAC inherits it (`hmac_rfc2104_refuted`).
2. `Xoshiro256pp::from_splitmix64` fills all four words with one output
   (`xoshiro_from_splitmix64_refuted`).
3. Signature parsing: wrong first index in `ElementMispaired`
   (`sig_errors_refuted`); endless padding loop and panics for unsuitable
   buffers (`sig_parse_terminates_refuted`, `sig_parse_no_panic_refuted`);
   missing trailing padding in GVar struct sizes (`sig_gvar_size_refuted`);
   variant flag not propagated and unsupported flag misplaced
   (`sig_variant_flag_refuted`, `sig_empty_struct_flag_refuted`); the length of
   long signatures is six times too large (`sig_len_refuted`), which breaks
   navigation and sub-signatures (`sig_moves_refuted`, `sig_sub_len_refuted`).
4. DVar encoder: variants panic or overflow (`dvar_variant_panics_refuted`,
   `dvar_variant_overflow_refuted`); writing to a vector from index 0 corrupts
   it (`dvar_encodes_vec_refuted`, `vec_append_refuted`). Decoder: `more()`
   compares an absolute position with a length (`dvar_more_refuted`).
5. Mapped I/O: `write_iter` loses items with large maps
   (`map_write_iter_refuted`); alignment to 2^31 overflows
   (`map_align_refuted`). Streams: `read_map_while` panics if it starts at or
   beyond its limit (`stream_map_while_refuted`).
6. osi JSON: characters lost or reported twice around errors
   (`json_accounts_refuted`, `json_accounts_twice_refuted`).
7. tmp JSON tokenizer: U+001F accepted, segments duplicated
   (`tok_control_refuted`, `tok_segments_refuted`); `complete` loops for ever or
   panics (`tok_complete_loops_refuted`, `tok_complete_panics_refuted`), and
   loses the last digits of a number (`tok_complete_number_refuted`); leading
   zeros accepted (`tok_leading_zero_refuted`).
8. tmp JSON documents: two values, missing and extra commas accepted, `{}`
   and members rejected (`doc_*_refuted`); keys reported as values
   (`doc_key_refuted`).
9. Arguments: flags of commands below the entered path accepted
   (`args_innermost_refuted`); short flags do not exist and are reported with
   their dash (`args_short_refuted`).
10. `cmp_natural` is not transitive once numbers reach 2^64
    (`str_natural_refuted`, `str_number_refuted`).
11. PE: the magic of PE32+ and the EFI subsystem numbers are wrong
    (`pe_constants_refuted`).
12. Help does not list words that lead only to commands further below
    (`help_words_refuted`).
13. `EM_TRIMEDIA`, `EM_QDSP6`, `EM_8051`, `EM_STXP7X`, `EM_NDS32` and `EM_ECOG1` are one
    smaller than registered, so that the first is the number of `EM_R32C`
    (`elf_numbers_refuted`, `elf_extensions_refuted`).
14. `OnceRef` is documented to behave like a reference but compares addresses,
    not values (`onceref_compares_values_refuted`).
15. The format-generic coders panic for `Format::Json` (`ende_new_refuted`);
    `inline` copies nothing and reports success (`inline_copies_refuted`), and
    panics where elements are left (`inline_returns_refuted`).
16. `bswap_copy` asks only that the type stays valid with reversed bytes, which
    `MaybeUninit<u16>` does, but reads objects of 2, 4, 8 and 16 bytes as
    integers, which is undefined behaviour if they are not initialised
    (`mem_bswap_refuted`).
17. `osi::ffi::abi::target` names the modules `x86_win` and `x86_64_win`, which do
    not exist, so that the crate does not compile for Windows with MSVC
    (`plat_windows_refuted`); `sys::ffi::linux::native` does not fall back to
    `libc` as documented (`plat_libc_fallback_refuted`); `target` is chosen by
    architecture only and has the wrong types on x32 (`plat_x32_refuted`) and on
    big-endian Arm (`plat_big_endian_refuted`).
18. `Ptr` is `Sync` if its target is, but can be copied and then made a mutable
    reference, so that an object that is not `Send` can be changed by another
    thread (`threads_ptr_refuted`).
19. `OnceRef` is `Send` also if it was made from an `Rc`, and `from_deref` is
    documented to be always safe on it, so that two threads can have an `Rc` to
    the same object (`threads_count_refuted`).
20. `Sig::parse` does not initialise the whole buffer as documented, so that
    `Sig::<[u64; N]>::try_make` and `make`, which are safe, return memory that is
    not initialised if `N` is larger than needed (`sig_make_refuted`).
21. `pin::as_ptr`, `as_mut_ptr`, `nonnull_from_pin_ref` and `nonnull_from_pin_mut`
    accept owners, such as `Pin<Box<T>>`, and drop them: the object is destroyed and
    the raw pointer dangles (`pin_raw_dangling`, `pin_raw_refuted`).
22. `flag_mut_at` and `command_mut_at` give out mutable references to whole flags and
    commands, so that safe code can assign others and break the order of a layout, which is
    documented to be guaranteed: flags are then not found (`layout_edit_refuted`), and
    links lead to unrelated commands (`layout_edit_link_refuted`).
23. Writing to a `Vec` at an end beyond `isize::MAX` panics (capacity overflow) instead of
    reporting an error; aligning with the exponent 31 fills up to 2^64-2^31 because of a sign
    extension, and larger exponents panic (`map_vec_answer`, `map_align_answer`).
24. `Node8` packs its length by `(length as u16) << 10`, which drops the upper bits of
    lengths of 64 and above before they are checked. No signature reaches it: lengths are
    at most 62 before the check (`word_parse_is_parse`).
25. `complete` of the streaming JSON decoder takes everything in the buffer for a part of
    the unfinished token, also data that arrived after the last `pop`: digits become white
    space, and bytes that are not UTF-8 make it panic (`tok_complete_anytime_refuted`).
26. `ffi::Pointer` documents that `to_usize` and `as_ptr` never give null. With an address
    type such as `u64` they do: `Pointer::<u64, T>::new(0)` is safe
    (`fixed_pointer_never_null_refuted`).
27. `Debug` of `AlignOf` writes `AlignAs`: `AlignOf<AlignAs<4>>` is shown like `AlignAs<4>`
    (`marker_debug_name_refuted`).
28. If a command is given twice, the flags of one of the two are unknown when it is entered
    (`args_twice_known_refuted`); which one depends on the sorting of the standard library. Nothing
    rejects such a layout.
29. `elf::Dyn::d_tag` is unsigned; the specification has it signed (`Elf32_Sword`,
    `Elf64_Sxword`), so that a negative tag is read as a large number (`elf_signs_refuted`).
30. `coerce_unsafe!` transmutes in builds without Polonius, but a coercion may dereference: from a
    reference to a box to a reference to its contents, say. This compiles in both builds, as its
    safety section asks, and refers to different objects (`coerce_same_refuted`).
31. The MS-DOS stub has its stack at 64 to 128 bytes from its start, but is 64 bytes long and has a
    `minalloc` of zero. The documented loader may give it as little as 64 bytes, and then its first
    instruction writes to memory of someone else (`stub_stack_refuted`, `stub_message_refuted`).
    A `minalloc` of 4 would be right. Setting `lfanew`, as the comment suggests, invalidates the checksum
    (`stub_checksum_lfanew`).
32. The two tokenizers for JSON do not accept the same texts: a name directly followed by a number (`null-1`) is
    two tokens for `osi` and an error for `tmp`; leading zeros and U+001F in a string are errors for `osi`
    and none for `tmp` (`json_agree_names_refuted`, `json_agree_zero_refuted`, `json_agree_control_refuted`).
33. Signatures may contain structures without members, which the D-Bus specification forbids. The elements of an array of
    them have no bytes, so `a()` with one element and with two are encoded alike (`dvar_lossless_refuted`).
34. The flag for misaligned types depends on where the type is: the signature `(v)` has it, but the equal signature taken out of
    `a(v)` does not (`dvar_marked_exactly_refuted`). Structures are aligned to 8 bytes, so by its documentation it should be clear in both.
35. D-Bus decoders do not check padding, the byte after a string, and the length of arrays: messages that are not well-formed
    are accepted. The byte after a string may be missing, the decoder is then past the end of the message (`dvar_accepted_refuted`).
36. The loop `while dec.more() { read an element }` leaves out the last elements of an array, and closing the array and
    committing the decoder succeed: of an array of 16-bit numbers the last two are lost (`dvar_loop_refuted`; the cause is in Finding 4).
## Trusted base

* Coq 8.16.1 kernel (including `vm_compute`).
* The reading of the Rust source that the model's comments cite, and the
  semantics of Rust and its standard library that the conventions above state:
  no tool ties the model to the code. The `Replay*.v` files run the unit tests of
  the repository on the model (tokenizers, hashes, strings, signatures, encoder,
  writer, elements, foreign integers, raw memory, tagged pointers,
  file headers, conditional blocks, members, alignment markers, brands, pinned
  and converted pointers); those of the generators are in `RngProps.v`. They check the
  transcription and prove nothing.
* The specifications in the `*Spec.v` files, transcribed from the standards
  they name.
* Axioms: none. `Print Assumptions` is printed beneath every property theorem
  in the `*Props.v` files and answers "Closed under the global context" for
  each of them. The libraries used (Coq's standard library, including `ssreflect`) declare seven
  axioms in `Coq.ssr.ssrunder.Under_rel`, which no theorem here depends on.
