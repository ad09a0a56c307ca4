# Formal model of json-persistence

Rocq (Coq 8.16.1), standard library only. Sources in `rocq/theories`.
Each model definition cites the C++ file and lines it follows.

## Trusted base

* The Coq kernel, including `vm_compute` used for finite case checks.
* No axiom is declared. Every property theorem is followed by `Print Assumptions`; for each theorem in MANIFEST.json the answer is `Closed under the global context`. `coqchk` also lists seven axioms `Coq.ssr.ssrunder.Under_rel.*`: they come with a file of the standard library that is loaded, and no theorem depends on them.
* The correspondence between the Gallina model and the C++ headers, made by reading. C++ templates are modelled by one interpreter over a deep embedding of the supported types.
* RapidJSON is not in the repository. Its DOM queries (`IsInt`, `FindMember`, ...), its reader events and its `Pointer` are modelled from its documentation and marked as such.
* libc `timegm` and `gmtime` are modelled by the proleptic Gregorian calendar.

## Modelled

* Leaf algorithms: Base64, date-time, numeric range check, perfect hash, bit set, paths and JSON pointers, reference tables, polymorphic stack, enum converter.
* Types: nullptr, bool, integers, float, double, string, bytes, timestamp, date, enums (integer and string), vector, array, set, map, unordered_map, pair/tuple, variant, classes with required, default and optional members, recursive classes, derived classes, unique_ptr, shared_ptr, raw pointers (output only).
* The four transformations: serialize to DOM, write to events and text, deserialize from DOM in both modes, parse from events with the handler stack.
* The generator of JSON schemas (schema.hpp) and the document of a schema.
* Texts: the writer and the reader of RapidJSON on bytes, with the string and document entry points built on them. How a double is printed and how the digits of a number are rounded are parameters of these models.
* Objects on a heap that point to each other in any way, and the exhaustion of the stack (serializing and writing).
* Undefined behaviour (null dereference, uninitialised reads, signed overflow, bad casts) is a separate outcome.

## Not modelled

* Decimal printing and reading of floating-point numbers: RapidJSON code; documents carry exact floating-point numbers.
* Lifetimes in general; modelled are those behind the references of the parser (LifetimeModel.v), that of the buffer of a temporary string (InsituModel.v) and where the strings of a serialized document are (StorageModel.v).
* Memory allocation failure, threads other than in ThreadModel.v, dictionaries with `std::string_view` keys (output only), `std::string_view` members other than in StorageModel.v (output only), Windows specifics. Boost.Describe: see DescribeModel.v.
* Platform: LP64, 8-bit signed `char`, libstdc++ clock of 10^9 ticks where a concrete resolution is needed.

## Checks of the model

* `Suite.v` evaluates the test-suite of the library in the model: every case of `test/*.cpp` on serialization, deserialization, parsing, schemas and the leaf algorithms gives the outcome that the tests expect. Its header lists what is left out.
* Each property theorem has an example next to it on a concrete input.
* `seeded/LOG.jsonl` records edits of the model that imitate bugs, and the theorems that fail.

## Plan per property

* **C01 Base64 output is the RFC 4648 text.** Base64.v models the loops over an explicit memory (bytes after the buffer are a parameter). Spec: bit string cut in 6-bit groups. Proof: one 48-bit step = two triplet steps by bit reasoning, then induction on the length.
* **C02 Base64 round trip.** Composition of C01's chunk form with the decoder; induction on 3-byte chunks, 64/256-case finite lemmas by computation lifted to all values.
* **C03 Base64 decoder accepts exactly padded base64.** Decoder modelled with its table; spec is an independent grammar plus big-endian bit regrouping. Induction on quadruplets.
* **C04 Base64 decode then encode.** From C02 and C03.
* **C05 Base64 encoder reads beyond its input for some lengths.** The model of the encoder records every read offset; exact characterisation of the largest one by arithmetic.
* **C06 Date-time text survives parse and format.** Datetime.v models parse/format; timegm/gmtime modelled by the civil-from-days algorithm (libc, trusted), spec is a naive day count. Round trip by the bijection of the two and digit lemmas.
* **C07 Time point survives format and parse.** Same bijection, other direction; sub-second part by Z.quot.
* **C08 Date-time parser accepts exactly ISO dates and gives the right instant.** Exact grammar by case analysis on the 20 characters; instant compared with a naive sum over years and months.
* **C09 Formatted date-times sort like time points.** Lexicographic order of fixed-width decimal fields equals order of tuples; tuples ordered as instants.
* **C10 Formatting outside years 0000-9999 gives wrong text silently.** Model of to_chars failing silently; theorem for all years above 9999, and refutation of the round trip.
* **C11 Numeric range check is exact.** NumericTraits.v; all type pairs, values in Z; floats as exact dyadic numbers.
* **C12 Integers are read exactly or rejected.** Corollary over the deserializer and parser leaf models.
* **C13 Perfect hash finds every member name and no out-of-range index.** PerfectHash.v models the construction with fuel (non-termination = no result) and proves lookup correct whenever construction ends.
* **C14 Member dispatch of the parser is lookup by name.** Corollary of C13 plus the Solo and Pair parsers.
* **C15 Paths printed for references and errors are JSON pointers to the right place.** Path.v models printing and RapidJSON's pointer parsing/resolution. Spec: walking the segments. Refutations for '/' '~' and empty names.
* **C16 Reference tables keep the first entry.** Association lists; induction on the history.
* **C17 DOM round trip.** Main theorem over the deep embedding of types and values (Types.v, Serialize.v, Deserialize.v).
* **C18 Writing directly and writing via DOM give the same text.** Write.v emits events; DOM rendered by an event function; equality by induction on values.
* **C19 Write then parse round trip.** Parse.v stack machine; refinement to a denotational reader, then round trip.
* **C20 parse and deserialize agree.** Denotational reader against deserializer model.
* **C21 Throwing deserialization accepts exactly the documents of the type.** Inductive relation 'document denotes value at type' as spec; equivalence with throwing mode.
* **C22 Boolean deserialization can report success for a bad document.** Refutation witness plus the two positive halves.
* **C23 Deserialization errors point at the culprit.** CulpritSpec.v defines the local defects of a document and their positions without any traversal; the error reported is the least defect. Variants with alternatives free of classes; references excluded by refutation.
* **C24 Shared pointers are written once and stay shared.** Round trip with reference tables related by an injective renaming of addresses; pointer resolution from C15.
* **C25 Variants take the first alternative that reads.** Direct unfolding against a 'first success' spec.
* **C26 Generated schema accepts what is written.** SchemaModel.v models the generated schema and its document, SchemaSpec.v is a validator written from JSON Schema 2020-12 for the keywords used (format and contentEncoding taken as assertions). Soundness by induction on the schema; a refutation for each exception. typeid names are assumed different and without special characters.
* **C27 Parser consumes exactly one value and restores its stack.** Corollary of the machine refinement with arbitrary stack below.
* **C28 Polymorphic stack is a bounded LIFO that never overruns.** PolyStack.v with byte offsets; invariant by induction over operations.
* **C29 Unknown members: parser rejects, deserializer ignores.** On the models of both readers.
* **C30 Missing members.** On the models of both readers.
* **C31 Order of members in the document does not matter.** Permutation lemmas on the models.
* **C32 Enum names convert back and forth.** EnumConv.v.
* **C33 Reading replaces or merges old content.** The models take the old value as input.
* **C34 Non-finite numbers.** On the models of writer and serializer.
* **C35 Members of derived classes are not checked.** Classes carry the number of members whose flag is observed; refutation witnesses.
* **C36 Duplicate keys.** On the models of both readers.
* **C37 Written text is valid JSON and reads back as the same document.** TextModel.v models rapidjson::Writer and Reader on bytes, TextSpec.v is the grammar of RFC 8259. The reader is proved to accept exactly the grammar (fuel never runs out), the writer to print texts of it, and both are composed with C17 and C19. How doubles are printed and read is a parameter: the theorems ask that the doubles of the document survive it.
* **C38 Float survives the passage through double.** Floats as exact dyadic numbers, rounding defined from nearest-even.
* **C39 Nesting limit of the parser.** Machine with capacity against machine without.
* **C40 Bit set operations.** Bitset.v.
* **C41 String enums below a container cannot be parsed.** On the machine.
* **C42 Containers of small integers cannot be parsed.** On the machine.
* **C43 Fixed-size containers need the exact count.** On both readers.
* **C44 Failed throwing-mode back-reference is silent.** On the deserializer model.
* **C45 A constructor that throws corrupts the handler stack.** StackModel.v with a flag for a constructor that throws.
* **C46 The parser accepts exactly the documents that can be merged into the object.** Refinement in three steps: machine to recursive reader (ParseRead), reader with to reader without limit, reader to the inductive relation of MergeSpec.
* **C47 Documents have the documented format.** DocSpec.v describes the document of a value inductively; induction on values.
* **C48 Some sets of distinct member names have no perfect hash.** The low bits of the hash only depend on the low bits of the seed and of the characters; with C13 the search cannot end.
* **C49 Types with a schema.** An inductive predicate on types against existence of enough fuel; fuel monotonicity; the class graph is well-founded where the predicate holds.
* **C50 References in schemas resolve.** Schema documents are walked by the keywords that hold schemas; the generator keeps the definitions closed under references, and its result does not depend on them.
* **C51 Documents that fit the schema can be read.** Validation at fuel m against the meaning of documents (DenoteSpec), by induction on m and on the type. With variants and shared pointers (SchemaReadAll.v) the induction is on the interpreter itself: every part returns true, and alternatives that do not fit return false, by the safety invariant of C53.
* **C52 Number literals.** std::from_chars from the C++ standard against an inductive definition of numerals; strtod is a parameter.
* **C53 Untrusted input is read without undefined behaviour, with two exceptions.** An invariant of the interpreter: an undefined outcome only at a late date or a stray reference of the document; the events before a syntax error are the first events of some document.
* **C54 What was read can be written and read again.** Every value that a document denotes is one of those that survive the round trip (C17, C37), if what an object may keep is.
* **C55 Variants survive the round trip.** The alternatives before the right one fail on a document of another shape and only use up addresses, so the simulation of C24 goes through variants.
* **C56 Object graphs are serialized exactly if they have no cycle.** HeapModel.v and HeapWriteModel.v run the serializers on addresses, with a bound on the nesting of calls. Objects in the table of references have finitely much below them, an invariant that excludes that a cycle is ever completed; without cycles the nesting is bounded and both agree with the models on trees.
* **C57 A member that is left out leaves references to nothing.** Evaluation of both models with a symbolic object; the text of the path by the lemmas for C15.
* **C58 Temporary strings are read in place with the same result.** InsituModel.v reads from and writes to one buffer. Invariant: the write position never passes the read position, and what is before the read position of a value is not touched later; induction over the reader.
* **C59 Deeply nested input exhausts the stack in deserialize, not in parse.** ReaderModel.v is the reader as a program that calls a handler, with a bound on its nested calls, the codes of errors and their positions. It gives the same events as TextModel.v. Every bracket that a handler of the library takes is a handler on the stack, and the stack has room for 128.
* **C60 The offset of a parse error is the place where the text stops being JSON, or the token that does not fit.** Positions are the rests of the text in ReaderModel.v. OffsetSpec.v says which characters start a JSON text, independently of the reader, and cuts a text into tokens. The proof follows the reader on two texts that agree up to the characters that show the error, and completes what was read to a JSON text.
* **C61 The text of a parse error says what was expected at the offending token.** MessageModel.v adds the messages of the handlers and of RapidJSON to the models of C60. MessageSpec.v says what can come after some tokens of a value, from the type alone (`awaits`), and what is wrong with a token there (`complaint`). The proof relates the stack of handlers to what is awaited, and shows that only one thing is awaited and that there is at most one complaint.
* **C62 The text of a deserialization error says what is wrong with the first defect of the document.** The errors of DeserializeModel.v carry the variable parts of their sentences; ErrorModel.v makes the text. ErrorSpec.v says in terms of the type expected and the value found what the sentence is (`says`). The proof uses the first defect of C23; of several missing properties the first in the declaration is the first defect.
* **C63 A serialized document outlives the object that it was made from, except for the texts of views.** StorageModel.v repeats the serializers with a DOM whose strings know where their characters are (pool, constant, outside memory, local variable). Reading such a document when memory has changed is a relation (StorageSpec.v). Where the object has views is an oracle on paths. The proof relates the two serializers step by step.
* **C64 The text of a schema is a JSON text of the schema document.** SchemaTextModel.v gives the schema classes of the library as classes of the deep embedding, with the documents as derived classes, and the schema as an object of them; the text is that of the writer model. The proof shows that writing the object gives the document that SchemaModel.v defines directly, so that simplification is no longer trusted; then C18 and C37 apply.
* **C65 Base classes leave no trace but in the result flag.** HierarchyModel.v has the bodies of persist functions as sequences of steps and archives with an identity, so that copies have flags of their own, and also the archives of object_members.hpp, which are types. The four archives are instances of one machine. The proof shows that the number of members whose flag is seen, which the other models take as part of the class, is what the copies give.
* **C66 The types that can be written, read, parsed and described are the documented ones.** SupportModel.v lists the partial and full specializations of the five class templates as data (place, pattern of arguments, enable_if condition, what the body instantiates and asks for) and selects among them as the compiler does (matching, then partial ordering; C++17 [temp.class.spec.match], [temp.class.order]); `compiles` means that everything instantiated, transitively, compiles. SupportSpec.v gives the list of the documentation without templates; C66_exactly says that the two agree. SupportLinkProps.v ties the C++ types to the deep embedding `ty` that all other theorems use: all of its types can be written, and its conditions for schemas are those of the compiler. Not modelled: cv-qualified types, other than default comparators, hashes, deleters and allocators, types that cannot be moved, specializations added by the program, PERSISTENCE_BOOST_DESCRIBE; C++20 and all headers included.
* **C67 Described enumerations are written by name and read up to a NUL.** DescribeModel.v models the PERSISTENCE_BOOST_DESCRIBE branches over a list of enumerators; Boost's enum_to_string and enum_from_string (a strcmp per enumerator) are modelled after their documentation and are part of the trusted base. DescribeProps.v says what is read by a relation between a text and a name (the name, or the name, a NUL and anything).
* **C68 Threads that format times at once mix them up, unless calls do not overlap.** ThreadModel.v runs any number of threads over one shared std::tm, one load or store at a time (sequentially consistent: a data race, strictly speaking undefined); gmtime may store the members in any order. ThreadSpec.v speaks of the texts only: own text, pieces of texts, at most one call in progress. One invariant, parameterised by the values that may be in a member, gives both the exclusive and the general case; a measure of remaining steps gives that threads finish.
* **C69 make_datetime takes any numbers and carries them over.** CarryModel.v has the unsigned subtractions, the conversions to int and a timegm that normalises its fields and fails with -1 if the year overflows (libc, trusted). CarrySpec.v starts at the first of the month in the day-by-day calendar of C06 and adds the rest. C69_parsers justifies the simpler make_datetime that the parsers of C06 to C10 are modelled with.
* **C70 The parser never uses a reference to an object that is gone.** LifetimeModel.v repeats the handlers of ParseModel.v statement by statement with references that have a time of birth and with the operations that end lifetimes (vector growth, optional emplace, new pointees, popped handlers and their storage); use of what is gone is an outcome of its own. LifetimeProof.v keeps the invariant that the references of the stacked handlers are ordered from outer to inner and that lifetimes only end beyond the innermost; C70_nothing_gone is then a refinement of ParseModel.v, whose references are good forever. `moves` decides for each growth whether the buffer moves and is arbitrary. Moves of elements are taken to keep what the element owns in place (vectors, maps, pointers), which does not matter to a handler since none is left inside. Custom allocators and exceptions in the middle of an operation (C39 aside) are not modelled.
* **C71 What another version of the program reads from a document.** EvolveSpec.v describes, by recursion on the types and values of the two programs, what a value of one becomes in the other (becomes), and which changes are compatible (wider, compatible). EvolveProof.v shows by induction on the document that this is what the document of the value denotes in the other program (doc of DocSpec.v, denotes of DenoteSpec.v), so C71_exactly follows from C47 and C21, and by induction on the value that compatible changes leave nothing unreadable. Texts (strings, bytes, times, dates, names of enumerators) are the only place where the description mentions the document. Values of the same class table index correspond in `compatible`: a renamed class is the same class.
* **C72 How often the values of a document are read.** VisitModel.v repeats the deserializers of DeserializeModel with a record of the calls; C72_same shows that nothing else is changed. VisitSpec.v says by rules on types and documents which values are read as what (reads), and how many values there are. VisitProof.v: every call is one of these and none is made twice; VisitCount.v: bounds on the number, and none is left out if an object is returned. VisitProps.v: the theorems and the family of documents with exponentially many calls. A call counts as one step: not counted are the work on the characters of texts, the search for members by name, insertions in containers and the way along a reference.
* **C73 A syntax error names what is missing or malformed at the offset, and there is exactly one such error in a text that is not JSON.** SyntaxSpec.v says, with the grammar of TextSpec.v only, where in a text a value or a name is due (value_place, name_place) and what each of the fifteen errors means of the text before and after the offset (wrong). SyntaxRead.v: where the reader of ReaderModel.v stops, whatever the handler, the text is wrong in this sense. SyntaxReplay.v: the reader comes to every such place and stops there. Hence the error is unique, and parse and deserialize agree. That RapidJSON reports these errors at these places is part of the model of the reader (see below), written from knowledge of RapidJSON, whose source is not in the repository.
* **C74 A reference is read the same in both forms of a JSON pointer.** PathModel.v has the parser of rapidjson::Pointer for both forms. FragmentSpec.v gives the grammar of both (RFC 6901 and UTF-8), RespellSpec.v says where names lead in a document (arrives) and when two documents differ in the form of their references only (respelled). FragmentProof.v: the parser accepts exactly the grammar. FragmentTarget.v: resolution is exactly arrives, the overflow check for indices included. FragmentRead.v: deserialization of respelled documents is the same, by induction over document and type.
* **C75 Two object graphs have the same document exactly if they are the same up to addresses.** No new model. IsomorphProof.v: serializing a renamed value goes step by step as serializing the value, with the table of visited objects renamed, by induction over values (the injectivity is used where the table is searched); the converse composes the renaming found by reading one document (C24) with the inverse of the other. IsomorphProps.v adds texts by C18 and C37, and the refutation with a slash in a member name.
* **C76 The document of an object graph has the size of its objects, shared ones counted once.** No new model. SizeSpec.v counts the values of an object by itself. SizeProof.v: by induction over values, the document and the objects added to the table balance, the table has no address twice, and (if nothing fails) it is closed under pointers; the induction uses that an address is not inside its own object (C56). The exponential case is on HeapModel.v, where raw pointers have addresses.
* **C77 Documents read one after the other into the same object are layers.** No new model. LayerSpec.v combines two documents by itself. LayerProof.v: by induction over the upper document, reading it into the result of the lower one is reading the combined one (on the specification of C21). LayerAny.v: no deserializer looks at the old content, and what it leaves is what it would leave again, on the model itself. LayerParse.v: the same document merged again, on the specification of C46, entry by entry and member by member.
* **C78 Copies of values that were never set.** IndetModel.v repeats the deserializers of DeserializeModel.v with a check at each place where a local variable is moved or copied: `determinate` says whether every scalar that the copy touches has a value (C++17 [dcl.init]/12; unsigned char is exempt), and if not, the outcome is undefined. `given`, `ready`, `prepared` and `initialised` in IndetSpec.v describe objects and classes whose members have values. The proofs compare with the deserializers of DeserializeModel.v: the outcome is the same or undefined (for all types), and the same where what is moved can be shown to have a value, by C21 (throwing, plain types), by acceptance, or because what has a value keeps it. Dates: std::chrono::year_month_day default-initialised has no value; value-initialised (in pairs and tuples) it is zero, but counts here as without a value, so that the positive theorems are on the safe side. Whether the object is moved at `return obj` is left open (`moved`). The converse (IndetCopy.v): `lacking` says that something stored in the object has no value, and C78_copied and C78_copied_optional show that such an object is never moved without the outcome being undefined. parse is not considered: it reads into the object or into new elements in place.
* **C79 Whatever is read, the object stays an object of its type.** `valid` in ValidSpec.v says what contents a type allows, by rules over types and values, without reference to the model. For the deserializers: induction over the document and the type, with the objects behind shared pointers as an invariant of the state (ValidProof.v). For parse: an invariant of the machine of ParseModel.v for arbitrary events (ValidParse.v): every complete object has a type and a valid content, every handler refers to a place of the type it fills, and the storage vector of a set is newer than all objects that the handlers below refer to. ValidText.v shows that also texts with errors send only doubles, given that numbers are read as doubles.
* **C80 Writing an object of its type is undefined only for unset values, null pointers, short byte strings and far dates.** `part` and `bad` in DefinedSpec.v: the parts of an object, by rules over types and values, and the four kinds of values that must not be written. Induction over the object, for all types, contexts and tables of shared pointers (DefinedProof.v), with a bound on the years that 64-bit clocks reach. The writer follows by C18, what is left after reading by C79.
