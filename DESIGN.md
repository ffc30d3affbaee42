# Formal model of chen-qingyu/pyincpp in Coq 8.16.1

## 1. What is modelled, and how

Every public class of the library is modelled function by function: `Int`,
`Fraction`, `List`, `Deque`, `Set`, `Dict`, `Str`, `Tuple`, `Complex` and the helpers of
`utility.hpp`. Model files contain definitions only; every definition cites the file and lines it models.

**Outcomes.** A C++ call ends in one of: a value (`Ok`), a `std::runtime_error`
(`Throw`, one constructor per message), undefined behaviour (`UB`, with a reason:
out-of-bounds access, signed overflow, invalid iterator range, ...) or, for loops
run on fuel, `OutOfFuel`. Undefined behaviour is never assumed away: the model reaches
`UB` where the C++ text does, and the theorems say when.

**Loops.** Counted loops are structural recursion on the number of remaining
iterations with explicit indices into the digit vector (reads and writes are checked).
`while` loops take fuel; termination theorems have the form "there is an n such that
with any fuel >= n the result is r" (`converges`) and non-termination is "OutOfFuel for
every fuel" (`diverges`).

**Mutators that may throw** return the outcome together with the state left behind,
so "an operation that throws changes nothing" is a theorem, not a modelling choice.

**Machine integers.** Values of C++ type `int` are `Z`; every arithmetic expression of
type `int` whose range is not locally obvious is passed through `chk32`, which is `UB` on
signed overflow. `size()` (a `size_t` to `int` conversion) wraps modulo 2^32. The digit
cells inside `Int` are plain `Z`: the invariants prove them to be in [-10, 99].

**The `-=` out-of-bounds access.** `Int::operator-=` executes `a[i + 1] += 0` with
`i + 1 == a.size()` whenever both operands have the same number of digits. This is
undefined behaviour in C++, with no effect on memory contents. The model of `Int` is
parametrised by a policy: `Strict` (any out-of-range access is `UB`) or `Benign` (the
read-modify-write `v[size] += 0`, and only that, is a no-op). Value theorems are for
`Benign`; the `Strict` behaviour is characterised separately and shown to agree with
`Benign` whenever it is not `UB`.

**Floating point.** binary64 arithmetic is Flocq's `BinarySingleNaN` with prec 53,
emax 1024 and round-to-nearest-even. libm functions (`pow`, `exp`, ...) are parameters.

**Standard library.** `std::vector`, `std::deque`, `std::string` are lists; `std::set`
and `std::map` are strictly sorted (association) lists over an arbitrary strict total
order; the sorted-range algorithms, `std::remove`, `std::rotate`, `std::copy_if` are
transcribed from their specification. `std::stable_sort` is represented by a
reference stable sort, which is proved to be the only function meeting its contract.

## 2. Plan per property

(C01..C34 Int, C35..C46 Fraction, C47..C66 List, C67..C69 Deque, C70..C73 Set,
C74..C78 Dict, C79..C97 Str, C98..C99 Tuple, C100..C103 Complex; added while the model grew:
C104, C105 Fraction, C106..C109 List, C110, C111 Deque, C112..C116 Set, C117..C119 Dict, C120..C125 Str,
C126..C137 Complex, C138..C143 printing, C144..C145 across types, C146, C147 Str,
C148..C153 laws between operations, C154..C157 loop counts,
C158..C162 self-extension and nesting, C163..C165 Fraction as double and its hash,
C166..C171 the element types in containers, C172..C174 programs over Str,
C175 the undefined calls on containers, C176..C179 input streams with formatting state, C180, C181 the hashes, C182 the exceptions,
C183..C186 Ints too long for an int to count, C187, C188 references into Dicts, C189, C190 iterators over Dicts, C191, C192 references into Lists, C193 into Deques, C194..C196 client code called by Lists,
C197..C201 small client programs, C202..C204 iterators over Lists, C205..C207 over Deques, C208..C211 over Sets, C212 reading Fractions in the base of the stream,
C213..C217 pointers and iterators into Strs, C218..C220 Sets and Dicts whose comparisons throw, C221 how many comparisons they make, C222..C225 Ints when memory runs out, C226 how many allocations they make, C227..C230 Lists whose copies and allocations may throw, C231 how many of them they make, C232..C236 the same for Deques, C237..C241 for Sets, C242..C246 for Dicts, C247 printing with std::showpos, C248..C251 Strs when memory runs out, C252..C257 reading from streams with exceptions, C258..C261 printing to streams that run full, C262 and C263 the distribution of Int::random, C264..C278 and C280..C283 comparison with Python, C279 a graph search, C284 and C285 the words of a text turned around and its numbers added up, C286 the numbers of Fibonacci, C287 searching by halving.)

| property | model | proof |
|---|---|---|
| C01, C34 | store of Int variables, `step` per API statement | induction over programs, refinement to a store of Z |
| C02, C03, C33 | character lists, Horner parsing, digit printing, istream tokens | comparison with Coq's own decimal notation of Z |
| C04, C05, C07, C12, C30 | index loops over digit vectors | invariant on the weighted digit sum and digit ranges |
| C06, C27 | policy `Strict`, aliasing variant of the `+=` loop | exact characterisation of the UB cases, refutation |
| C08, C09, C10 | long division loop | invariant remainder < divisor * 10^i; refutation of the division identity by witness |
| C11, C28, C29, C31 | comparison, hash, predicates, moves | canonicity of the representation |
| C13, C14, C15, C18..C23 | fuel loops | number theory over Z (`Znumtheory.prime`, `Z.gcd`, ...) |
| C16, C17 | Newton loop | descent to the floor root; two-cycle when n = k^2-1 (divergence) |
| C24, C25, C26 | checked machine arithmetic | induction over digits; boundary witness |
| C32 | random source as an oracle | for all oracles |
| C35..C39, C42, C43 | `chk32`-checked int arithmetic | cross-multiplication over Z, comparison with Q |
| C40, C41 | Flocq division | relative error bound; witness |
| C44..C46 | istream with eof/fail bits | parsing lemmas; divergence at end of file |
| C47..C66 | `M` state monad over lists | functional specs with firstn/skipn/nth_error |
| C67..C69 | same over deque | same |
| C70..C73 | sorted lists, merge algorithms | membership characterisation, uniqueness of sorted lists |
| C74..C78 | sorted association lists | refinement to `K -> option V` |
| C79..C97 | lists of bytes | first-occurrence specification, FSM against grammar |
| C98, C99 | heterogeneous lists of typed values | induction |
| C100..C103 | Flocq binary64 | algebra of rounding, witnesses |
| C138, C139 | universe of nested types | texts are self-delimiting, induction on the type |
| C140..C143, C247 | ostream with width, fill, alignment, base, showpos | induction on the type |
| C144 | client programs of every type | a throwing branch of a step stores nothing |
| C145 | the two literal parsers | both equal one grammar |
| C146, C147 | Flocq binary64, `std::pow` as argument | one factor 1+2^-53 per rounding; witness |
| C148..C150 | expression trees over Int and Fraction | induction on the tree; ring and field laws through the denotation; witness |
| C151..C153 | calls composed with `bind` | the specifications of the single calls, sequence lemmas |
| C154..C157 | the fuel of the loops, read as the number of tests | induction on the fuel; Fibonacci numbers (gcd); halving, then squaring, of the error (sqrt) |
| C158 | the flag `self` of the models, `Nat.eqb v w` in the programs | computation |
| C159..C162 | element order of nested containers (`synth_cmp`) | witnesses; lexicographic lifting of total orders; sets in a chain are ordered by size |
| C163..C165 | `frac_double`, `frac_hash` | one division of exact doubles; cross products below 2^52 are told apart; witness |
| C166 | `RenameSpec`: programs with renamed elements | naturality of every container function, induction over programs |
| C167..C169 | C166 with the denotation of Int, small Fractions, the byte order of Str | the comparison theorems of each type |
| C170, C171 | `list_uniquify`, `set_of` at Complex and double | witnesses; total order of doubles without NaN and -0 by classes |
| C172..C174 | `xstep`: programs over Str and List<Str> variables | statement by statement against relations on plain texts; the undefined calls are one decidable predicate |
| C175 | the program models of List, Deque, Set and Dict | one decidable predicate per container type; both directions proved from the refinement theorems |
| C176..C179, C212 | istream with width, skipws and base | stepwise comparison with the default stream; positional notation in base 8 and 16 |
| C180, C181 | the hash functions for arbitrary hashes of the parts | parity of digit counts; closure under xor; bitwise comparison |
| C182 | the program languages of C34, C36, C66, C67, C70, C74, C172 | inversion of the abstract steps; one witness program per text |
| C183..C186 | `IntWideModel.v`: the Int operators with every int counter checked or wrapped | agreement with `IntModel.v` below the limits; inversion of the loops above them |
| C187, C188 | `DictRefModel.v`: map nodes with addresses, pointer variables | the map functions do not look at the values; simulation by finite maps with pointers to keys |
| C189, C190 | `DictIterModel.v`: iterators as nodes or ends, with the map a node belongs to | simulation by finite maps with iterators at keys; induction over the rest of the range |
| C191, C192 | `ListRefModel.v`: elements as objects with addresses, explicit capacities, `grow` arbitrary | simulation by sequences with pointers to positions; what each statement does to the pointers is a separate relation |
| C193 | `DequeRefModel.v`: elements as objects with addresses | the same; inductions over pushes and over a queue |
| C194..C196 | `ListCallModel.v`: client functions with a state and exceptions | `asks` and `scan` describe the course of the calls; inductions over the loops |
| C197..C201 | `ClientModel.v`: programs of a user of the library, calling the models of the members | composition of the theorems about the members |
| C202..C204 | `ListIterModel.v`: iterators as addresses or numbered ends, on top of `ListRefModel.v` | refinement to positions from 0 to the length; loop rules by induction over the remaining positions |
| C205..C207 | `DequeIterModel.v`: iterators as addresses with a count of insertions seen, or numbered ends, on top of `DequeRefModel.v` | refinement to positions; the elements are followed through each statement with the lemmas on references; loop rules as for Lists |
| C208..C211 | `SetIterModel.v`: nodes with addresses in iteration order, iterators as addresses or numbered ends | refinement to mathematical sets with a cursor at an element, past all, or lost; exact undefinedness by deciding every case; one loop rule with a measure, from which the range-for, the reverse loop, the removal idiom and the closure loop follow; `LoopTest.v`: loops whose iterators are not of one container, for Lists, Deques and Sets |
| C213..C217 | `StrPtrModel.v`: a pointer is a Str, a number that counts how often its characters were replaced, and a position; a pointer sees the null character, an iterator does not | refinement to texts with positions; exact undefinedness by deciding every case; loop rules for the range-for and the loop up to a null character |
| C218..C221 | `TreeModel.v`, `SetTreeModel.v`, `DictTreeModel.v`: search trees of any shape, the algorithms of libstdc++ on them, comparisons with a state and exceptions | a triple for code that may throw (what holds after success, what after an exception), then refinement through the programs of C70 and C74; a second triple that counts |
| C222..C225 | `IntMemModel.v`: Int with the capacity of its vector, numbered allocations of which any may fail, the order in which the members are changed, integer programs with handlers | weakest preconditions with three exits (result, `bad_alloc`, other); each function in step with its counterpart in `IntModel.v`; then what is left behind, in terms of integers |
| C226 | the same model, counted | the number of subtractions of a division is the digit sum of what it stores, by induction over the loop |
| C227..C231 | `FailModel.v`, `ListFailModel.v`: every allocation and element copy is a numbered event that may fail; `std::vector` with its capacity as in libstdc++ | weakest preconditions with three exits; each member in step with its counterpart in `ListModel.v`; then exactly what each failing event leaves; counting triples |
| C232..C236 | `FailRunModel.v` (statements whose exceptions the client catches), `DequeFailModel.v`; how many blocks `std::deque` allocates is a parameter | `FailRun.v`: a statement in step with its counterpart, then programs by induction, once for all containers; `FailCost.v`: counting triples |
| C237..C241 | `SetFailModel.v`: `std::set` of libstdc++ with its nodes; how many copies an element takes is a parameter | as C232..C236, related to mathematical sets as in C70 |
| C242..C246 | `DictFailModel.v`: `std::map` of libstdc++ with its nodes; the Sets that `keys`, `values` and `items` build are those of `SetFailModel.v` | as C237..C241, related to finite maps as in C74 |
| C248..C251 | `StrFailModel.v`: `std::string` of libstdc++ with its local buffer and capacity, `std::ostringstream`, which turns a failed allocation into badbit, `List<Str>` as in `ListFailModel.v` | each member against StrProgModel; related to plain texts as in the Str programs |
| C252..C257 | `ExnStreamModel.v`: the extractions call by call, each input function followed by the test of the exceptions mask | against the extractions without exceptions (bits are only ever added during an extraction), then texts and loops |
| C258..C261 | `SinkModel.v`: the printing functions of `OStreamModel.v` piece by piece, on a buffer that takes a number of characters, with badbit, failbit and the exceptions mask | a relation between a printing function with and without limit, preserved by doing one thing after the other |
| C262, C263 | `RandomModel.v`: all draws of `Int::random` are a function of one seed | counting draws; pigeonhole |
| C264..C274 | `PySpec.v`: what the corresponding operations of Python's list, str, int, Fraction, deque and dict do | the earlier characterisations (C47, C48, C50, C57, C59, C61, C79, C94, C08, C10, C42, C87, C89, C82, C75) against these |
| C275 | `PyPrintSpec.v`: Python's str and repr of the corresponding values | `text` (PrintSpec.v): where the texts differ they part before either ends, so differences in elements are differences of the whole |
| C277, C278 | `PyTextSpec.v`: Python's str.format, count, replace, lower, upper | `formatted`, `pieces` and `apart` (StrSpec.v); where a template has a doubled brace the results part at it |
| C280, C281 | `PyFloatSpec.v`: the texts Python's float() takes | `dec_literal` (StrSpec.v) is what is left of them without underscores, other whitespace and large exponents |
| C282, C283 | `PyComplexSpec.v`: the arithmetic of CPython's complex objects, with Smith's division | the other operations are the same terms; quotients by exact integer arithmetic on doubles; == through its exact form (C101) |
| C284 | `WordsModel.v`: the client program `sep.join(text.split(sep, keep).reverse())` | from the specifications of split, join and reverse; lengths through the sum of the pieces |
| C285 | `WordsModel.v`: the client program `for (auto&& w : text.split(sep)) sum += w.to_integer();` | from the specifications of split, to_integer (C82) and += (C04) |
| C286 | `WordsModel.v`: the client program `Int t = a + b; a = b; b = t;` in a loop | induction from the exactness of + (C04); all numbers are non-negative, so also under `Strict` |
| C287 | `BisectModel.v`: binary search on a List, with `lo + (hi - lo) / 2` and with `(lo + hi) / 2` | the place of x stays between lo and hi; the distance halves, so 31 rounds suffice |
| C279 | `SearchModel.v`: breadth-first search by a user of the library; `SearchSpec.v`: walks | the queue is sorted by distance, distances in it differ by at most 1, neighbours of vertices taken out are found |
| C20, C276 | `IntPowSpec.v`: `kept`, the product that square-and-multiply forms before the last reduction | the value of `int_pow` with a modulus for every base: the sign is lost at the first product with as many digits as the modulus |
| C41, C105, C108, C109, C110, C113, C114, C118, C119, C123, C139, C150, C159, C161, C266, C272 | `Exact.v`, `ExactMore.v`, `QuoteText.v`, `FracEqual.v`, `FracLoop.v`, `NestChain.v`, `StrFull.v` | exactly where these false properties hold |
| C85 | `StrNanSpec.v`, `StrNan.v` | the literals that become NaN: signs and special values through Bmult, Bdiv, Bplus |

Properties that are false of the code are kept as stated and answered by theorems named
`..._refuted`, together with a theorem describing exactly where they hold.

## 3. Trusted base

**Coq.** The kernel of Coq 8.16.1 with its virtual machine (`vm_compute`), and the library Flocq 4.1.0
(definitions of binary64 arithmetic and its correctness theorems). No own axioms, no `Admitted`.

**Axioms.** `Print Assumptions` stands under every property theorem. All theorems are closed under
the global context except those that mention `double`: Flocq's real numbers bring in the four axioms of
the standard library

- `ClassicalDedekindReals.sig_forall_dec`
- `ClassicalDedekindReals.sig_not_dec`
- `FunctionalExtensionality.functional_extensionality_dep`
- `Classical_Prop.classic`

They appear in: `C05_floor_division_of_ints`; `C35_lowest_terms`, `C36_assignment`, `C36_programs`,
`C37_small_operands`, `C40_*`, `C41_*`, `C42_remainder`, `C43_*` (== on Fraction is computed in
double); `C83_language`, `C84_*`, `C85_*`, `C122_*`, `C125_*` (`to_decimal`);
`C163_*`, `C164_*`, `C165_*`, `C168_uniquify_refuted`, `C168_small_total`, `C168_small_lists`, `C168_small_sets`,
`C168_small_dicts`, `C170_*`, `C171_order_refuted`, `C171_plain_total`, `C176_default`, `C177_kept`,
`C178_noskipws_refuted`, `C178_complex`, `C182_fraction`; and in all theorems about
Complex (C100-C103, C126-C137) except `C100_pos`, `C100_neg_involution` and `C100_conjugate_involution`, which are
closed. `C100_neg`, `C100_conjugate`, `C103_neg` and `C103_conjugate` use only the first and third.

**The reading of the C++ text.** The model was written from the sources by hand, definition by
definition, with the lines cited. Nothing was compiled or run. As a check of the reading, the files
`Tests_*.v` transcribe the cases of the repository's own tests and evaluate them in the model: all agree, except that

- test_complex.cpp:187 and 188 expect an exception where the code reads an uninitialised variable;
- test_list.cpp:250, 251 and test_deque.cpp:177 insert a container into itself through its own
  iterators, which the standard does not allow;
- cases that need the values of `<cmath>` functions, iterators as objects, and `Int::random` are left out; two primes near 2^31 are left out for cost.

These files are tests; no property rests on them.

### Modelled

All constructors, operators and member functions of `Int`, `Fraction`, `Complex`, `List`, `Deque`,
`Set`, `Dict`, `Str`, `Tuple`; their `operator<<`, `operator>>` and `std::hash` specialisations; the
checks of `utility.hpp`; and the client loops `for (auto& x : xs) is >> x` and `while (is >> x)`.
Programs (sequences of API statements over variables) are modelled for Int, Fraction, List, Deque,
Set, Dict and Str (the last without `to_decimal` and stream input).

### Simplified

- *Memory.* Allocation always succeeds, except in `ListFailModel.v`, `DequeFailModel.v`, `SetFailModel.v` and `DictFailModel.v` (C227..C246), see *Elements*, in `StrFailModel.v` (C248..C251), and in `IntMemModel.v` (C222..C226), where any allocation of `Int` may fail: there a vector operation happens
  completely or not at all, the capacity after growth is arbitrary, and the digit loops are those of `IntModel.v`, since they allocate nothing. Vectors, deques and strings are lists; capacities,
  iterator invalidation and addresses do not appear, except in the models of references, pointers and iterators (`*RefModel.v`, `*IterModel.v`, `StrPtrModel.v`),
  where nodes and elements have addresses or numbers that count the events which invalidate. A container moved from is empty. A range that
  is part of the container being extended, and self-move of a container, are `UB SelfRange`.
- *Sizes.* `int` is 32 bits. In `IntModel.v` the index arithmetic of `Int` is unchecked;
  `IntWideModel.v` checks it for the basic operators, and C183 shows that the two agree up to INT_MAX digits. For the other containers the conversion of `size()` to int wraps and the theorems
  carry a length hypothesis wherever they need one.
- *Elements* of containers are arbitrary types whose comparison functions are pure and do not throw, except in `ListCallModel.v`, where
  `==`, actions and predicates called by List have a state and may throw, and in `TreeModel.v`, where the comparisons of Set and Dict do
  (copying elements still does not throw). In `ListFailModel.v`, `DequeFailModel.v`, `SetFailModel.v` and `DictFailModel.v` copying an element or allocating may throw, while comparisons, actions, moves and
  destructors do not; a copy assignment of an element that throws leaves the element as it was; ranges are given by forward iterators. For
  Set, Dict and sorting the order is a strict total order; equality is decidable.
- *Searching* in `std::set` and `std::map` is a linear lower bound: same result, different cost; `TreeModel.v`
  has the searches of libstdc++'s trees, for C218..C221 only, with the shape of the tree after a change arbitrary (no rotations) and the hint
  of `std::inserter` always the end.
  `std::stable_sort` is insertion sort, with a proof that its contract has one solution only.
  `std::remove` follows the loop of the standard with move = copy. The in-place `copy_if` is undefined under
  the flag `strict` and a left-to-right loop otherwise.
- *Randomness* (`Int::random`, `shuffle`) is an arbitrary oracle; *hashes* of elements are arbitrary functions.
- *Streams* are a buffer with eofbit and failbit, default format flags, C locale; badbit
  occurs on output only, in `SinkModel.v` for C258..C261 and in `StrFailModel.v`; exceptions masks are in `ExnStreamModel.v` and
  `SinkModel.v` only. Extraction of a `double` follows libstdc++'s
  `num_get` in collecting characters, with `strtod` an argument. What `os <<` writes for an element or a double
  is an argument. Output streams with other formatting state (width, fill, alignment, base, showpos; not
  showbase) are modelled in `OStreamModel.v` for C140..C143 and C247, which also shows that in the default state
  the texts used elsewhere are what is written. Input streams with a field width, noskipws or another base are modelled in
  `FStreamModel.v` for C176..C179 and C212, with the same kind of link to the default state (`C176_default`).
- *Floating point.* Every operation is rounded to binary64 on its own: no fused multiply-add and no
  excess precision. `<cmath>` functions are arguments; where a theorem needs something of them
  (for example that pow(10,k) is exact for k up to 22) it is a hypothesis.
- *Str.* Characters are bytes, `char` is signed; a C string ends at its first null. The member is a
  `const std::string` written through `const_cast`: `ConstUB` makes that undefined, `ConstBenign`
  an assignment. Arguments of `format` are given by the text `oss <<` produces for them.
- *Tuple.* Element types are codes with decidable equality. A failing `static_assert` (a program that does not compile) is `None`.

### Not modelled

Overload resolution and implicit conversions (each call is modelled at the overload it selects),
`noexcept`,
time and memory cost (except numbers of loop rounds, C154..C157, of comparisons, C221, of allocations, C226, and of copies, C231, C236, C241 and C246; allocations of `Str`, C251), and threads.

## 4. Testing the theorems with wrong programs

A mutant is a copy of the development, outside this repository, in which one definition of a model file differs:
a comparison turned, a constant changed, a check or an assignment dropped, two branches swapped. Some were written by hand
with a plausible slip of the C++ code in mind, the others were generated by replacing every occurrence of an operator, constant or
constructor in turn. Every property file that depends on the changed file is built again. The results are in
`seeded/LOG.jsonl`, one line per mutant.

- `theorems_failed` lists the property theorems that could not be built any more: those that depend on a lemma whose
  proof no longer goes through. The mutant makes at least one of them false in nearly all cases, but not necessarily each of them.
- A mutant that no theorem notices is looked at by hand. Either it is equivalent to the original (the changed branch cannot be reached,
  or both versions compute the same), which the line says, or a theorem was missing or too weak; then one was added or
  tightened and is named in `theorems_tightened`.
- Mutants that are not well typed are not counted.
