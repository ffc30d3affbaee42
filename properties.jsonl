{"id": "C01", "title": "Int values stay canonical through every history", "statement": "After any sequence of Int operations (construction, copy, move, compound assignment, increment, decrement, unary and binary operators, with operands taken from any variables), every Int variable prints without leading zeros or a negative zero, and two variables compare == exactly when they hold the same mathematical integer.", "quantifier": "every finite sequence of API calls over any number of Int variables, every start value", "why_tests_cant": "The canonical form is an invariant over unboundedly many histories; one missing trim() after a rare borrow pattern would break == and hash for values no test builds.", "anchors": ["sources/int.hpp: Int::trim", "sources/int.hpp: Int::operator==", "sources/int.hpp: Int::operator+=", "sources/int.hpp: Int::operator-=", "sources/int.hpp: Int::operator*=", "sources/int.hpp: Int::operator/=", "sources/int.hpp: Int::operator%="]}
{"id": "C02", "title": "Int string construction accepts exactly decimal literals", "statement": "Int(chars) succeeds exactly on an optional sign followed by at least one decimal digit, and then holds the number the digits denote; every other string throws \"Error: Wrong integer literal.\".", "quantifier": "every null-terminated byte string of any length", "why_tests_cant": "The set of strings is infinite; tests try one rejected literal.", "anchors": ["sources/int.hpp: Int::Int(const char*)", "sources/int.hpp: Int::is_integer"]}
{"id": "C03", "title": "Int printing is the decimal notation and round-trips", "statement": "Streaming an Int writes exactly the usual decimal notation of its value (minus sign only for negatives, no leading zeros, 0 for zero), and constructing an Int from the printed text gives an equal Int.", "quantifier": "every Int value of any number of digits", "why_tests_cant": "Round-trip over all integers.", "anchors": ["sources/int.hpp: operator<<(std::ostream&, const Int&)", "sources/int.hpp: Int::Int(const char*)"]}
{"id": "C04", "title": "Int addition is exact", "statement": "For any two Ints a and b, a + b (and a += b on distinct objects) never throws and holds the mathematical sum; it accesses only existing digits unless the operands have opposite signs and equally many digits (that case is the subtraction memory-safety property).", "quantifier": "all pairs of integers of any sign and size", "why_tests_cant": "Carry chains of every length and every sign combination.", "anchors": ["sources/int.hpp: Int::operator+=", "sources/int.hpp: Int::operator+"]}
{"id": "C05", "title": "Int subtraction is exact", "statement": "For any two Ints a and b, a - b (and a -= b, also with b the same object) holds the mathematical difference.", "quantifier": "all pairs of integers of any sign and size, including aliasing operands", "why_tests_cant": "Borrow chains of every length, sign flips and operand swaps.", "anchors": ["sources/int.hpp: Int::operator-=", "sources/int.hpp: Int::operator-"]}
{"id": "C06", "title": "Int subtraction stays inside its digit buffers", "statement": "a -= b never reads or writes beyond the digit vectors of its operands.", "quantifier": "all pairs of Ints", "why_tests_cant": "An access one element past the end that adds zero leaves every visible result intact, so value-based tests pass.", "anchors": ["sources/int.hpp: Int::operator-= (a[i + 1] += floor_div(tmp, BASE))"]}
{"id": "C07", "title": "Int multiplication is exact", "statement": "For any two Ints, a * b (and a *= b, also with b the same object) holds the mathematical product and every intermediate digit cell stays within int range and within the vector.", "quantifier": "all pairs of integers of any sign and size", "why_tests_cant": "Quadratic carry interaction over all digit patterns.", "anchors": ["sources/int.hpp: Int::operator*=", "sources/int.hpp: Int::operator*"]}
{"id": "C08", "title": "Int division truncates toward zero", "statement": "For b != 0, a / b is the mathematical quotient truncated toward zero; for b == 0 it throws \"Error: Divide by zero.\" and leaves a unchanged. Each quotient digit takes at most nine subtractions.", "quantifier": "all pairs of integers of any sign and size, including a /= a", "why_tests_cant": "Long division over all operand lengths; loop bound is a claim about all states.", "anchors": ["sources/int.hpp: Int::operator/=", "sources/int.hpp: Int::operator/"]}
{"id": "C09", "title": "Int remainder complements the quotient", "statement": "For every a and every b != 0, (a / b) * b + a % b == a and |a % b| < |b|.", "quantifier": "all pairs of integers, b nonzero, all sign combinations", "why_tests_cant": "Tests only use remainders that are zero; the law must hold for every sign and digit-count combination.", "anchors": ["sources/int.hpp: Int::operator%=", "sources/int.hpp: Int::operator/="]}
{"id": "C10", "title": "Int remainder value", "statement": "For b != 0 a % b is: a itself if a has fewer digits than b, otherwise |a| mod |b|; in particular for a >= 0 it is the Euclidean remainder a mod |b|, in [0,|b|). For b == 0 it throws \"Error: Divide by zero.\" and leaves a unchanged.", "quantifier": "all pairs of integers", "why_tests_cant": "Exact functional description over an infinite domain.", "anchors": ["sources/int.hpp: Int::operator%="]}
{"id": "C11", "title": "Int comparison is the integer order", "statement": "==, !=, <, <=, >, >= on Ints agree with the comparison of the mathematical integers for every pair.", "quantifier": "all pairs of Ints", "why_tests_cant": "Total-order laws quantify over all pairs and triples.", "anchors": ["sources/int.hpp: Int::operator<=>", "sources/int.hpp: Int::operator==", "sources/int.hpp: Int::abs_cmp"]}
{"id": "C12", "title": "Int increment and decrement", "statement": "++x adds one and --x subtracts one, for every value including zero, carries over any run of nines and borrows over any run of zeros, and crossing zero in both directions.", "quantifier": "every Int value", "why_tests_cant": "Runs of nines and zeros of every length.", "anchors": ["sources/int.hpp: Int::operator++", "sources/int.hpp: Int::operator--", "sources/int.hpp: Int::abs_inc", "sources/int.hpp: Int::abs_dec"]}
{"id": "C13", "title": "Int factorial", "statement": "factorial() of n >= 0 terminates with n!; of a negative number it throws \"Error: Negative integer have no factorial.\".", "quantifier": "every Int value", "why_tests_cant": "Infinite domain, loop termination.", "anchors": ["sources/int.hpp: Int::factorial"]}
{"id": "C14", "title": "Int primality test", "statement": "is_prime() terminates and returns true exactly when the value is a prime number (>= 2 with no divisor other than 1 and itself).", "quantifier": "every Int value", "why_tests_cant": "Correctness of trial division for every integer; termination.", "anchors": ["sources/int.hpp: Int::is_prime"]}
{"id": "C15", "title": "Int next_prime is the least larger prime", "statement": "next_prime() terminates for every value and returns the smallest prime strictly greater than it.", "quantifier": "every Int value", "why_tests_cant": "Termination needs the infinitude of primes; minimality quantifies over the skipped numbers.", "anchors": ["sources/int.hpp: Int::next_prime"]}
{"id": "C16", "title": "Int::sqrt returns the floor square root when it returns", "statement": "For a negative argument sqrt throws; for n >= 0 any value it returns is the largest r with r*r <= n, and it does return for every n that is not one less than a perfect square k*k with k >= 3.", "quantifier": "every Int value", "why_tests_cant": "Convergence of the Newton iteration from the digit-count start value for all n.", "anchors": ["sources/int.hpp: Int::sqrt"]}
{"id": "C17", "title": "Int::sqrt always terminates", "statement": "Int::sqrt(n) returns for every n >= 0.", "quantifier": "every non-negative Int value", "why_tests_cant": "Non-termination on an infinite but sparse family of inputs is invisible to samples (the tests try 0,1,2,3,4,5,9,10,16,100,9801).", "anchors": ["sources/int.hpp: Int::sqrt"]}
{"id": "C18", "title": "Int::pow without modulus", "statement": "With no modulus, pow(b,e) for e >= 0 terminates with b**e; for e < 0 it returns (-1)**e or 1 for b = -1, 1, returns 0 for |b| >= 2 and throws for b = 0.", "quantifier": "all pairs of integers", "why_tests_cant": "Square-and-multiply over all exponents.", "anchors": ["sources/int.hpp: Int::pow"]}
{"id": "C19", "title": "Int::pow with modulus on non-negative bases", "statement": "For b >= 0, b != 1, e >= 1 and m != 0, pow(b,e,m) terminates with (b**e) mod |m|.", "quantifier": "all b, e, m in those ranges", "why_tests_cant": "All exponents and moduli.", "anchors": ["sources/int.hpp: Int::pow"]}
{"id": "C20", "title": "Int::pow is (base**exp) % mod as documented", "statement": "pow(base, exp, mod) == pow(base, exp) % mod for every base, every exp >= 0 and every mod != 0.", "quantifier": "all triples", "why_tests_cant": "The documented equation must hold for negative bases, base 1, exponent 0 and modulus 1, which tests omit.", "anchors": ["sources/int.hpp: Int::pow (documentation comment and fast path)"]}
{"id": "C21", "title": "Int::log is the floor logarithm", "statement": "log(n, b) for n >= 1, b >= 2 terminates with the k such that b**k <= n < b**(k+1); otherwise it throws \"Error: Math domain error.\".", "quantifier": "all pairs of integers", "why_tests_cant": "Every n and every base including the base-10 fast path.", "anchors": ["sources/int.hpp: Int::log"]}
{"id": "C22", "title": "Int::gcd", "statement": "gcd(a,b) terminates with the non-negative greatest common divisor of a and b for every sign combination, gcd(0,0) = 0.", "quantifier": "all pairs of integers", "why_tests_cant": "Euclid's loop over all pairs; termination.", "anchors": ["sources/int.hpp: Int::gcd", "sources/utility.hpp: internal::gcd"]}
{"id": "C23", "title": "Int::lcm", "statement": "lcm(a,b) terminates with the non-negative least common multiple, and 0 if either is 0.", "quantifier": "all pairs of integers", "why_tests_cant": "All pairs.", "anchors": ["sources/int.hpp: Int::lcm"]}
{"id": "C24", "title": "Int to built-in integer conversion", "statement": "For a signed built-in type T of at least int width, x.to_integer<T>() equals x whenever |x| <= max(T); for unsigned T it equals x modulo 2**width.", "quantifier": "every Int value, every width", "why_tests_cant": "All values and widths.", "anchors": ["sources/int.hpp: Int::to_integer"]}
{"id": "C25", "title": "Int to built-in integer conversion covers the whole type range", "statement": "x.to_integer<T>() is defined and equals x for every x representable in T.", "quantifier": "every T value including the minimum", "why_tests_cant": "The minimum value is a single point of the domain, computed through an intermediate that overflows.", "anchors": ["sources/int.hpp: Int::to_integer"]}
{"id": "C26", "title": "Int from int holds that value for every int", "statement": "Int(n) holds n for every value n of type int.", "quantifier": "all 2**32 values", "why_tests_cant": "Boundary INT_MIN: std::abs overflows.", "anchors": ["sources/int.hpp: Int::Int(int)"]}
{"id": "C27", "title": "Self-addition x += x doubles x", "statement": "x += x (the same object on both sides) stays within the digit vector and doubles the value.", "quantifier": "every Int value", "why_tests_cant": "Aliasing is invisible to a test that uses two distinct operands.", "anchors": ["sources/int.hpp: Int::operator+="]}
{"id": "C28", "title": "Int hash agrees with ==", "statement": "a == b implies std::hash<Int>(a) == std::hash<Int>(b), for any underlying std::hash of int and signed char.", "quantifier": "all pairs of reachable Ints, all hash functions", "why_tests_cant": "Quantifies over all pairs of equal objects built in different ways.", "anchors": ["sources/int.hpp: std::hash<pyincpp::Int>"]}
{"id": "C29", "title": "Int parity and sign queries", "statement": "is_even, is_odd, is_zero, is_positive, is_negative and digits() agree with the mathematical value; digits() is the number of decimal digits (0 for zero).", "quantifier": "every Int value", "why_tests_cant": "Infinite domain.", "anchors": ["sources/int.hpp: Int::is_even", "sources/int.hpp: Int::is_odd", "sources/int.hpp: Int::digits"]}
{"id": "C30", "title": "Int negation and absolute value", "statement": "-a and a.abs() hold the negated and absolute value, keep a unchanged and yield canonical Ints (no negative zero).", "quantifier": "every Int value", "why_tests_cant": "Infinite domain.", "anchors": ["sources/int.hpp: Int::operator-()", "sources/int.hpp: Int::abs"]}
{"id": "C31", "title": "Int moves leave the source at zero", "statement": "Move construction and move assignment between distinct Ints transfer the value and leave a source that behaves as 0 in every later operation.", "quantifier": "every Int value and every later history", "why_tests_cant": "The moved-from state takes part in arbitrary later operations.", "anchors": ["sources/int.hpp: Int::Int(Int&&)", "sources/int.hpp: Int::operator=(Int&&)"]}
{"id": "C32", "title": "Int::random has the requested number of digits", "statement": "random(d) for d >= 0 is a canonical non-negative Int with exactly d digits, whatever the random source returns; random() has at most 4300 digits; d < -1 throws.", "quantifier": "every d, every outcome of the random source", "why_tests_cant": "All outcomes of a random source cannot be sampled.", "anchors": ["sources/int.hpp: Int::random"]}
{"id": "C33", "title": "Int stream extraction", "statement": "is >> x skips white space, consumes the longest run of non-white-space characters, and assigns exactly the Int that run denotes; if the run is not a literal it throws and leaves x unchanged; reading back a sequence of printed Ints separated by white space restores them.", "quantifier": "every stream content", "why_tests_cant": "All token sequences.", "anchors": ["sources/int.hpp: operator>>(std::istream&, Int&)"]}
{"id": "C34", "title": "Int programs refine integer programs", "statement": "Running any sequence of Int statements on any variables gives the same final values and the same exceptions as running it on mathematical integers, with / truncating and % as specified.", "quantifier": "every finite program over Int variables, aliasing operands included (except x += x with x nonzero)", "why_tests_cant": "Composition of operations over all histories and aliasing patterns.", "anchors": ["sources/int.hpp: class Int"]}
{"id": "C35", "title": "Fractions stay in lowest terms", "statement": "Every Fraction obtained from any API operation that does not overflow has a positive denominator and coprime numerator and denominator; a zero denominator throws \"Error: Divide by zero.\".", "quantifier": "every history of Fraction operations", "why_tests_cant": "Invariant over all histories.", "anchors": ["sources/fraction.hpp: Fraction::Fraction(int, int)"]}
{"id": "C36", "title": "Fraction arithmetic is exact unless int overflows", "statement": "+, -, *, / and unary - return the exact rational result whenever no intermediate int expression overflows; division by zero throws and leaves the operands unchanged.", "quantifier": "all pairs of Fractions", "why_tests_cant": "All numerators and denominators.", "anchors": ["sources/fraction.hpp: Fraction::operator+", "sources/fraction.hpp: Fraction::operator-", "sources/fraction.hpp: Fraction::operator*", "sources/fraction.hpp: Fraction::operator/"]}
{"id": "C37", "title": "Small Fractions never overflow", "statement": "If all numerators and denominators are at most 32767 in absolute value, +, -, *, /, %, <=> are free of overflow and exact.", "quantifier": "all Fractions in that range", "why_tests_cant": "2**60 operand pairs.", "anchors": ["sources/fraction.hpp: Fraction::operator+", "sources/fraction.hpp: Fraction::operator<=>"]}
{"id": "C38", "title": "Fraction arithmetic is total on representable fractions", "statement": "a + b, a - b, a * b, a / b and a <=> b are defined whenever the operands and the exact reduced result fit in int.", "quantifier": "all Fractions", "why_tests_cant": "Overflow of the unreduced intermediate products.", "anchors": ["sources/fraction.hpp: Fraction::operator+", "sources/fraction.hpp: Fraction::operator<=>"]}
{"id": "C39", "title": "Fraction ordering is the rational order", "statement": "<, <=, >, >= agree with the rational order whenever the two cross products and their difference fit in int.", "quantifier": "all such pairs of Fractions", "why_tests_cant": "All pairs.", "anchors": ["sources/fraction.hpp: Fraction::operator<=>"]}
{"id": "C40", "title": "Fraction == is rational equality on moderate operands", "statement": "a == b (computed through the implicit conversion to double) holds exactly when the two rationals are equal, whenever the cross products are below 2**52.", "quantifier": "all such pairs", "why_tests_cant": "Binary64 rounding of quotients for all operand pairs.", "anchors": ["sources/fraction.hpp: Fraction::operator double"]}
{"id": "C41", "title": "Fraction == is rational equality", "statement": "a == b holds exactly when a and b are the same rational, for all Fractions.", "quantifier": "all pairs of Fractions", "why_tests_cant": "Counterexamples are sparse: quotients that round to the same double.", "anchors": ["sources/fraction.hpp: Fraction::operator double", "sources/fraction.hpp: Fraction::operator<=>"]}
{"id": "C42", "title": "Fraction remainder", "statement": "For b != 0 and absent overflow, a % b equals a - trunc(a/b)*b, has absolute value below |b| and the sign of a; b = 0 throws.", "quantifier": "all pairs of Fractions", "why_tests_cant": "All pairs and signs.", "anchors": ["sources/fraction.hpp: Fraction::operator%"]}
{"id": "C43", "title": "Fraction gcd and lcm", "statement": "Absent overflow, gcd(a,b) terminates with the non-negative rational generating the same set of integer combinations as a and b (it divides both an integer number of times, and every common divisor divides it), and lcm(a,b) is |a*b|/gcd(a,b), or 0.", "quantifier": "all pairs of Fractions", "why_tests_cant": "Euclid on rationals; termination.", "anchors": ["sources/fraction.hpp: Fraction::gcd", "sources/fraction.hpp: Fraction::lcm", "sources/utility.hpp: internal::gcd"]}
{"id": "C44", "title": "Fraction print/parse round trip", "statement": "Streaming a Fraction writes n or n/d; extracting from that text followed by white space or end of input yields an equal Fraction.", "quantifier": "every Fraction", "why_tests_cant": "All fractions, both notations, signs.", "anchors": ["sources/fraction.hpp: operator<<(std::ostream&, const Fraction&)", "sources/fraction.hpp: operator>>(std::istream&, Fraction&)"]}
{"id": "C45", "title": "Fraction extraction rejects malformed text with an exception", "statement": "Extracting a Fraction from text that does not start (after white space) with a digit or sign, or whose separator is not '/', or that has trailing characters after the denominator (the digit strings denoting ints), throws \"Error: Wrong fraction literal.\" and leaves the Fraction unchanged.", "quantifier": "every such stream content", "why_tests_cant": "All malformed strings.", "anchors": ["sources/fraction.hpp: operator>>(std::istream&, Fraction&)"]}
{"id": "C46", "title": "Fraction extraction terminates on every stream", "statement": "is >> fraction returns or throws for every stream content, including an empty or exhausted stream.", "quantifier": "every stream content", "why_tests_cant": "End of file compares below 0x20 and is skipped forever; tests never read past the end.", "anchors": ["sources/fraction.hpp: operator>>(std::istream&, Fraction&)"]}
{"id": "C47", "title": "List indexing", "statement": "list[i] for -size <= i < size refers to element i (or size+i when negative), assignment through it changes exactly that element; any other index throws \"Error: Index out of range.\" and changes nothing.", "quantifier": "every list, every int index", "why_tests_cant": "All sizes and indices.", "anchors": ["sources/list.hpp: List::operator[]", "sources/utility.hpp: internal::check_bounds"]}
{"id": "C48", "title": "List insert and remove", "statement": "insert(i,e) puts e before position i and shifts the rest; remove(i) returns element i and closes the gap; remove(i) after insert(i,e) restores the list for i >= 0 (remove(i-1) for i < 0); bad indices or an empty list throw and leave the list unchanged.", "quantifier": "every list, index and element", "why_tests_cant": "All positions and sizes.", "anchors": ["sources/list.hpp: List::insert", "sources/list.hpp: List::remove"]}
{"id": "C49", "title": "List sizes never exceed INT_MAX", "statement": "insert, += element and += list either throw \"Error: The container has reached the maximum size.\" leaving the list unchanged or leave a list whose true length is at most INT_MAX and equals size().", "quantifier": "every list length up to INT_MAX", "why_tests_cant": "Needs lists of two billion elements.", "anchors": ["sources/list.hpp: List::operator+=", "sources/utility.hpp: internal::check_full"]}
{"id": "C50", "title": "List repetition", "statement": "list * n is n copies concatenated for n >= 0 whenever size*n < INT_MAX, and throws for n < 0 (list *= n leaves the list unchanged then).", "quantifier": "every list and n", "why_tests_cant": "All sizes and counts.", "anchors": ["sources/list.hpp: List::operator*", "sources/list.hpp: List::operator*="]}
{"id": "C51", "title": "List repetition detects too large results", "statement": "list * n throws when size*n exceeds the int range instead of invoking undefined behaviour.", "quantifier": "every list and n", "why_tests_cant": "The overflow happens before the check, only for huge products.", "anchors": ["sources/list.hpp: List::operator* (check_full(size() * times, INT_MAX))"]}
{"id": "C52", "title": "List removal operators", "statement": "list -= e removes exactly the first element equal to e (no change if absent); list /= e with e not inside the list removes all elements equal to e and keeps the others in order.", "quantifier": "every list and element", "why_tests_cant": "All lists.", "anchors": ["sources/list.hpp: List::operator-=", "sources/list.hpp: List::operator/="]}
{"id": "C53", "title": "List /= with an element of the list itself", "statement": "list /= list[i] removes all elements equal to the value list[i] had.", "quantifier": "every list and index", "why_tests_cant": "Reference aliasing inside std::remove.", "anchors": ["sources/list.hpp: List::operator/="]}
{"id": "C54", "title": "List rotation", "statement": "list >>= n and list <<= n move each element n places right or left cyclically for every int n (n > INT_MIN for >>=), >>= n undoes <<= n, and rotating by the size is the identity.", "quantifier": "every list and every n", "why_tests_cant": "All sizes and counts, negative counts.", "anchors": ["sources/list.hpp: List::operator<<=", "sources/list.hpp: List::operator>>="]}
{"id": "C55", "title": "List uniquify", "statement": "uniquify keeps exactly the first occurrence of each distinct element, in order.", "quantifier": "every list", "why_tests_cant": "All lists.", "anchors": ["sources/list.hpp: List::uniquify"]}
{"id": "C56", "title": "List sort is a stable sort", "statement": "sort(cmp) for a strict weak order cmp yields a permutation, in non-decreasing order, in which equivalent elements keep their relative order.", "quantifier": "every list, every strict weak order", "why_tests_cant": "All lists and orders.", "anchors": ["sources/list.hpp: List::sort"]}
{"id": "C57", "title": "List slice", "statement": "slice(start,stop,step) with valid start and stop returns the elements at start, start+step, ... up to but excluding stop (negative arguments counted from the end once), for every step of either sign whose last index increment fits in int; step 0 and out-of-range bounds throw.", "quantifier": "every list shorter than INT_MAX, start, stop, step", "why_tests_cant": "Four-parameter infinite space.", "anchors": ["sources/list.hpp: List::slice"]}
{"id": "C58", "title": "List slice is defined for every step", "statement": "slice(start,stop,step) returns for all valid bounds and every nonzero int step.", "quantifier": "every list, start, stop and nonzero step", "why_tests_cant": "i += step overflows int only for steps near INT_MAX.", "anchors": ["sources/list.hpp: List::slice"]}
{"id": "C59", "title": "List erase", "statement": "erase(start,stop) with 0 <= start <= stop <= size removes exactly the elements start..stop-1; bounds outside [0,size] throw and change nothing.", "quantifier": "every list shorter than INT_MAX and bounds", "why_tests_cant": "All bounds.", "anchors": ["sources/list.hpp: List::erase"]}
{"id": "C60", "title": "List erase rejects inverted ranges", "statement": "erase(start,stop) with start > stop throws or changes nothing.", "quantifier": "every list and bounds", "why_tests_cant": "No test inverts the range.", "anchors": ["sources/list.hpp: List::erase", "sources/str.hpp: Str::erase"]}
{"id": "C61", "title": "List search", "statement": "index(e,start,stop) with 0 <= start <= min(stop,size) returns the least position in [start,stop) holding e, or -1; contains and count agree with it.", "quantifier": "every list, element and range", "why_tests_cant": "All lists and ranges.", "anchors": ["sources/list.hpp: List::index", "sources/list.hpp: List::contains", "sources/list.hpp: List::count", "sources/list.hpp: List::find"]}
{"id": "C62", "title": "List search is defined for every start", "statement": "index(e,start) returns -1 when start is beyond the end of the list.", "quantifier": "every list and start", "why_tests_cant": "std::find over an inverted range.", "anchors": ["sources/list.hpp: List::index"]}
{"id": "C63", "title": "List filter and map", "statement": "filter(p) keeps exactly the elements satisfying p in order; map(f) replaces every element by f of it, in order.", "quantifier": "every list and function", "why_tests_cant": "All lists and functions.", "anchors": ["sources/list.hpp: List::filter", "sources/list.hpp: List::map"]}
{"id": "C64", "title": "List comparison is lexicographic", "statement": "<=> on lists is the lexicographic order of the element order and == is element-wise equality; for a total element order it is a total order.", "quantifier": "all pairs and triples of lists", "why_tests_cant": "Order laws quantify over triples.", "anchors": ["sources/list.hpp: List::operator<=>"]}
{"id": "C65", "title": "List printing", "statement": "Streaming a list writes '[' , the elements separated by \", \", and ']'.", "quantifier": "every list", "why_tests_cant": "All sizes.", "anchors": ["sources/list.hpp: operator<<", "sources/utility.hpp: internal::print"]}
{"id": "C66", "title": "List histories refine sequences", "statement": "Any sequence of List mutators behaves like the same sequence on an abstract sequence; an operation that throws leaves the list unchanged.", "quantifier": "every finite sequence of operations and every list", "why_tests_cant": "All histories.", "anchors": ["sources/list.hpp: class List"]}
{"id": "C67", "title": "Deque histories refine double-ended queues", "statement": "Any sequence of push/pop/front/back/extend/rotate/reverse/clear/index operations behaves as on an abstract sequence; popping or peeking an empty deque throws \"Error: The container is empty.\" and changes nothing.", "quantifier": "every finite sequence of operations", "why_tests_cant": "All histories.", "anchors": ["sources/deque.hpp: class Deque"]}
{"id": "C68", "title": "Deque used as FIFO and as stack", "statement": "Elements pushed at the back come out of pop_front in the same order, and out of pop_back in reverse order, for any interleaving of pushes and pops.", "quantifier": "every interleaving of pushes and pops", "why_tests_cant": "All interleavings.", "anchors": ["sources/deque.hpp: Deque::push_back", "sources/deque.hpp: Deque::pop_front", "sources/deque.hpp: Deque::pop_back"]}
{"id": "C69", "title": "Deque rotation", "statement": "deque >>= n and <<= n rotate cyclically for every int n (n > INT_MIN for >>=) and undo each other.", "quantifier": "every deque and n", "why_tests_cant": "All sizes and counts.", "anchors": ["sources/deque.hpp: Deque::operator>>=", "sources/deque.hpp: Deque::operator<<="]}
{"id": "C70", "title": "Set histories refine mathematical sets", "statement": "After any sequence of add/remove/pop/extend/clear and set operators, contains(e) is membership in the corresponding mathematical set, size() is its cardinality, iteration is strictly increasing; add and remove report whether the set changed.", "quantifier": "every history, every total element order", "why_tests_cant": "All histories.", "anchors": ["sources/set.hpp: class Set"]}
{"id": "C71", "title": "Set operators", "statement": "a & b, a | b, a - b, a ^ b contain exactly the elements in both, in either, in a only, in exactly one.", "quantifier": "all pairs of sets", "why_tests_cant": "Merge algorithms over all pairs of sets.", "anchors": ["sources/set.hpp: Set::operator&", "sources/set.hpp: Set::operator|", "sources/set.hpp: Set::operator-", "sources/set.hpp: Set::operator^"]}
{"id": "C72", "title": "Set comparison is inclusion", "statement": "a <= b is inclusion, a < b proper inclusion, a >= b and a > b their converses and a == b equality of membership.", "quantifier": "all pairs of sets", "why_tests_cant": "All pairs.", "anchors": ["sources/set.hpp: Set::operator<=", "sources/set.hpp: Set::operator<", "sources/set.hpp: Set::operator=="]}
{"id": "C73", "title": "Set extrema and pop", "statement": "min and max return the least and greatest element, pop removes and returns the least; on an empty set they throw and change nothing.", "quantifier": "every set", "why_tests_cant": "All sets.", "anchors": ["sources/set.hpp: Set::min", "sources/set.hpp: Set::max", "sources/set.hpp: Set::pop"]}
{"id": "C74", "title": "Dict histories refine finite maps", "statement": "After any sequence of add/remove/pop/extend/clear/assignment through [], lookup by [], get, contains behaves like the corresponding finite map, with at most one value per key; iteration is in increasing key order.", "quantifier": "every history", "why_tests_cant": "All histories.", "anchors": ["sources/dict.hpp: class Dict"]}
{"id": "C75", "title": "Dict add never overwrites", "statement": "add(k,v) returns true and maps k to v if k was absent, and returns false leaving the dict unchanged if k was present; extend and construction keep the first value of a repeated key.", "quantifier": "every dict, key, value", "why_tests_cant": "All states.", "anchors": ["sources/dict.hpp: Dict::add", "sources/dict.hpp: Dict::extend", "sources/dict.hpp: Dict::Dict"]}
{"id": "C76", "title": "Dict keys, values and items", "statement": "keys() is the set of mapped keys, values() the set of values occurring, items() the set of pairs.", "quantifier": "every dict", "why_tests_cant": "All dicts.", "anchors": ["sources/dict.hpp: Dict::keys", "sources/dict.hpp: Dict::values", "sources/dict.hpp: Dict::items"]}
{"id": "C77", "title": "Dict extrema on an empty dict", "statement": "min() and max() of an empty dict throw \"Error: The container is empty.\" as the other containers do.", "quantifier": "every dict including the empty one", "why_tests_cant": "Dereferencing end() may appear to work in a test build.", "anchors": ["sources/dict.hpp: Dict::min", "sources/dict.hpp: Dict::max"]}
{"id": "C78", "title": "Dict extrema", "statement": "On a non-empty dict min() and max() are the least and greatest keys and pop() removes and returns the entry of the least key; pop on an empty dict throws and changes nothing.", "quantifier": "every non-empty dict", "why_tests_cant": "All dicts.", "anchors": ["sources/dict.hpp: Dict::min", "sources/dict.hpp: Dict::max", "sources/dict.hpp: Dict::pop"]}
{"id": "C79", "title": "Str find", "statement": "find(p,start,stop) with 0 <= start and start <= min(stop,size) returns the least position i with start <= i, i+|p| <= min(stop,size) at which p occurs, or -1 if there is none; start > size returns -1.", "quantifier": "all strings, patterns and ranges", "why_tests_cant": "All strings.", "anchors": ["sources/str.hpp: Str::find", "sources/str.hpp: Str::contains"]}
{"id": "C80", "title": "Str find is defined for every range", "statement": "find(p,start,stop) is defined for every start and stop (negative start, stop before start).", "quantifier": "all strings and all int ranges", "why_tests_cant": "No test passes an inverted or negative range.", "anchors": ["sources/str.hpp: Str::find"]}
{"id": "C81", "title": "Str count", "statement": "count(p) is the maximal number of non-overlapping left-to-right occurrences, and size+1 for the empty pattern.", "quantifier": "all strings and patterns", "why_tests_cant": "All strings.", "anchors": ["sources/str.hpp: Str::count"]}
{"id": "C82", "title": "Str to_integer", "statement": "to_integer(base) succeeds exactly on blanks, optional sign, one or more base-digits (case-insensitive), blanks; the result is the number denoted; otherwise it throws; a base outside 2..36 throws.", "quantifier": "all strings shorter than INT_MAX and all int bases", "why_tests_cant": "All strings and bases.", "anchors": ["sources/str.hpp: Str::to_integer", "sources/str.hpp: Str::char_to_integer", "sources/str.hpp: Str::get_event"]}
{"id": "C83", "title": "Str to_decimal literal language", "statement": "to_decimal() accepts exactly the listed inf/nan spellings and blanks* sign? (digits+ ('.' digits*)? | '.' digits+) ([eE] sign? digits+)? blanks*, and throws on everything else.", "quantifier": "all strings shorter than INT_MAX whose exponent digits, if any, denote an int", "why_tests_cant": "All strings.", "anchors": ["sources/str.hpp: Str::to_decimal"]}
{"id": "C84", "title": "Str to_decimal value", "statement": "On an accepted finite literal to_decimal() returns sign * (mantissa / pow(10, number of decimals) * pow(10, signed exponent)) in double arithmetic, the mantissa being accumulated digit by digit and exact below 2**53; an integer literal up to 2**53 is returned exactly when pow(10,0) == 1.", "quantifier": "all accepted strings whose exponent fits in int", "why_tests_cant": "All literals.", "anchors": ["sources/str.hpp: Str::to_decimal"]}
{"id": "C85", "title": "Str to_decimal of zero and long literals is the denoted number", "statement": "to_decimal() of an accepted finite literal is never NaN.", "quantifier": "all accepted strings", "why_tests_cant": "0*inf and inf/inf arise only for extreme exponents or very long mantissas.", "anchors": ["sources/str.hpp: Str::to_decimal"]}
{"id": "C86", "title": "Str replace", "statement": "replace(old,new) for non-empty old replaces the non-overlapping occurrences found left to right and keeps all other characters; for empty old it puts new (without null characters) before every character and at the end.", "quantifier": "all strings", "why_tests_cant": "All strings.", "anchors": ["sources/str.hpp: Str::replace"]}
{"id": "C87", "title": "Str split and join", "statement": "sep.join(s.split(sep, keep_empty=true)) == s; no piece contains sep; split without keep_empty is the same list without empty strings; empty separator throws.", "quantifier": "all strings and separators", "why_tests_cant": "All strings.", "anchors": ["sources/str.hpp: Str::split", "sources/str.hpp: Str::join"]}
{"id": "C88", "title": "Str join then split", "statement": "For a one-character separator not occurring in the pieces, joining a non-empty list of pieces and splitting with keep_empty gives the pieces back.", "quantifier": "all lists of pieces", "why_tests_cant": "All lists.", "anchors": ["sources/str.hpp: Str::join", "sources/str.hpp: Str::split"]}
{"id": "C89", "title": "Str strip", "statement": "strip(c) removes exactly the maximal prefix and suffix of characters equal to c; strip() removes the maximal prefix and suffix of blank characters (codes 0..32).", "quantifier": "all strings over 7-bit characters", "why_tests_cant": "All strings.", "anchors": ["sources/str.hpp: Str::strip"]}
{"id": "C90", "title": "Str strip keeps non-blank bytes", "statement": "strip() never removes a byte that is not a blank, for every byte string (including UTF-8 text).", "quantifier": "all byte strings", "why_tests_cant": "Tests use 7-bit text only; plain char is signed.", "anchors": ["sources/str.hpp: Str::strip"]}
{"id": "C91", "title": "Str lower and upper on letters", "statement": "On strings of ASCII letters lower() and upper() change every letter to lower or upper case; both are idempotent.", "quantifier": "all strings of letters", "why_tests_cant": "All strings.", "anchors": ["sources/str.hpp: Str::lower", "sources/str.hpp: Str::upper"]}
{"id": "C92", "title": "Str lower and upper leave other characters alone", "statement": "lower() and upper() change only letters.", "quantifier": "all strings", "why_tests_cant": "Tests only use letters.", "anchors": ["sources/str.hpp: Str::lower", "sources/str.hpp: Str::upper"]}
{"id": "C93", "title": "Str rotation and reversal", "statement": "s << n and s >> n rotate cyclically for every n (n > INT_MIN for >>) and undo each other; reverse() is an involution that maps position i to size-1-i; the original is unchanged.", "quantifier": "all strings and n", "why_tests_cant": "All strings.", "anchors": ["sources/str.hpp: Str::operator<<", "sources/str.hpp: Str::operator>>", "sources/str.hpp: Str::reverse"]}
{"id": "C94", "title": "Str indexing, slicing, erasing, repetition", "statement": "Str [] / slice / erase / * behave as for List on the character sequence; negative repetition throws.", "quantifier": "all strings and arguments", "why_tests_cant": "All arguments.", "anchors": ["sources/str.hpp: Str::operator[]", "sources/str.hpp: Str::slice", "sources/str.hpp: Str::erase", "sources/str.hpp: Str::operator*"]}
{"id": "C95", "title": "Str starts_with and ends_with", "statement": "starts_with(p) and ends_with(p) hold exactly when the string is p followed (preceded) by something.", "quantifier": "all strings", "why_tests_cant": "All strings.", "anchors": ["sources/str.hpp: Str::starts_with", "sources/str.hpp: Str::ends_with"]}
{"id": "C96", "title": "Str format", "statement": "format(args...) replaces the i-th placeholder (a '{' up to the next '}') by the i-th argument, in order; surplus placeholders stay as they are and surplus arguments are ignored; text outside placeholders is unchanged.", "quantifier": "all format strings and argument lists", "why_tests_cant": "All strings.", "anchors": ["sources/str.hpp: Str::format", "sources/str.hpp: Str::format_helper"]}
{"id": "C97", "title": "Str stream round trip", "statement": "Streaming a Str writes its characters between double quotes; getline extraction of lines written one per line restores each newline-free Str.", "quantifier": "all strings", "why_tests_cant": "All strings.", "anchors": ["sources/str.hpp: operator<<", "sources/str.hpp: operator>>"]}
{"id": "C98", "title": "Tuple equality", "statement": "t == u holds exactly when both have the same number of elements, the same element types in order, and equal elements; != is its negation.", "quantifier": "all pairs of tuples of any length", "why_tests_cant": "Arity is unbounded.", "anchors": ["sources/tuple.hpp: Tuple::operator==", "sources/tuple.hpp: Tuple::operator!="]}
{"id": "C99", "title": "Tuple access", "statement": "get<i>() is the i-th constructor argument, rest() drops the first, size() is the arity; printing writes \"()\", \"(x,)\" or \"(x, y, ...)\".", "quantifier": "all tuples", "why_tests_cant": "Arity is unbounded.", "anchors": ["sources/tuple.hpp: Tuple::get", "sources/tuple.hpp: Tuple::rest", "sources/tuple.hpp: Tuple::size", "sources/tuple.hpp: operator<<"]}
{"id": "C100", "title": "Complex arithmetic formulas", "statement": "+, -, *, / compute the component formulas of complex arithmetic with one binary64 rounding per elementary operation; + and * are commutative bit for bit; - and conjugate are involutions.", "quantifier": "all doubles including infinities and NaN", "why_tests_cant": "All doubles.", "anchors": ["sources/complex.hpp: Complex::operator+", "sources/complex.hpp: Complex::operator*", "sources/complex.hpp: Complex::operator/", "sources/complex.hpp: Complex::conjugate"]}
{"id": "C101", "title": "Complex == is an equivalence consistent with hash", "statement": "== on Complex is reflexive, symmetric and transitive, and equal Complex values have equal hashes.", "quantifier": "all Complex values", "why_tests_cant": "Tolerance comparison breaks transitivity and hash agreement only for nearby values.", "anchors": ["sources/complex.hpp: Complex::operator==", "sources/complex.hpp: std::hash<pyincpp::Complex>"]}
{"id": "C102", "title": "Complex division throws only on zero", "statement": "a / b throws \"Error: Divide by zero.\" exactly when b is zero.", "quantifier": "all Complex values", "why_tests_cant": "Tiny non-zero divisors compare equal to zero.", "anchors": ["sources/complex.hpp: Complex::operator/", "sources/utility.hpp: internal::check_zero"]}
{"id": "C103", "title": "Complex arithmetic is exact on Gaussian integers", "statement": "If all parts are integers and the results stay below 2**53, +, -, * are exact Gaussian-integer arithmetic.", "quantifier": "all such Complex values", "why_tests_cant": "Rounding for all operands.", "anchors": ["sources/complex.hpp: Complex::operator*"]}
{"id": "C104", "title": "Fraction extraction returns only for text that is a fraction", "statement": "Whenever is >> fraction returns without an exception, the text starts (after white space) with an integer or integer/integer whose numbers fit in int, and the Fraction holds that value.", "quantifier": "every stream content", "why_tests_cant": "Out-of-range numbers and lone signs are a vanishing fraction of texts.", "anchors": ["sources/fraction.hpp: operator>>(std::istream&, Fraction&)"]}
{"id": "C105", "title": "The reading loop visits every fraction and ends", "statement": "while (is >> f) { ... } over white-space separated fractions runs its body once per fraction and then ends.", "quantifier": "every sequence of printed fractions", "why_tests_cant": "Depends on the stream flags after the last token, for every content.", "anchors": ["sources/fraction.hpp: operator>>(std::istream&, Fraction&)"]}
{"id": "C106", "title": "List erase and slice work on lists of INT_MAX elements", "statement": "erase(start,stop) and slice(start,stop,step) behave as on shorter lists when the list has INT_MAX elements.", "quantifier": "every list of INT_MAX elements", "why_tests_cant": "size() + 1 overflows only for a list of 2**31-1 elements.", "anchors": ["sources/list.hpp: List::erase", "sources/list.hpp: List::slice"]}
{"id": "C107", "title": "List filter respects the preconditions of the standard algorithms", "statement": "filter(p) calls only standard algorithms whose preconditions hold, so its result does not depend on the library implementation.", "quantifier": "every list and predicate", "why_tests_cant": "Tests only see the implementation they run on; std::copy_if requires non-overlapping ranges.", "anchors": ["sources/list.hpp: List::filter"]}
{"id": "C108", "title": "List extend keeps size() truthful", "statement": "After extend, size() equals the number of elements or an exception was thrown.", "quantifier": "every list and range", "why_tests_cant": "The wrap-around needs more than INT_MAX elements.", "anchors": ["sources/list.hpp: List::extend", "sources/list.hpp: List::size"]}
{"id": "C109", "title": "List += list accepts every result that fits", "statement": "list += other succeeds whenever the total number of elements is at most INT_MAX.", "quantifier": "every pair of different lists", "why_tests_cant": "Only totals within three of INT_MAX are rejected.", "anchors": ["sources/list.hpp: List::operator+=", "sources/utility.hpp: internal::check_full"]}
{"id": "C110", "title": "Deque extend keeps size() truthful", "statement": "After extend_back or extend_front, size() equals the number of elements or an exception was thrown.", "quantifier": "every deque and range", "why_tests_cant": "The wrap-around needs more than INT_MAX elements.", "anchors": ["sources/deque.hpp: Deque::extend_back", "sources/deque.hpp: Deque::extend_front", "sources/deque.hpp: Deque::size"]}
{"id": "C111", "title": "Deque comparison is lexicographic", "statement": "== on deques is equality of the sequences, and <, <=, >, >= are the lexicographic order, a total order whenever the element order is one.", "quantifier": "all pairs of deques", "why_tests_cant": "Order laws for all pairs and triples.", "anchors": ["sources/deque.hpp: Deque::operator<=>"]}
{"id": "C112", "title": "Sets of sets hold distinct sets", "statement": "A Set whose elements are themselves Sets behaves as a set: after adding distinct sets it contains exactly those, and add reports true for a set that was not there.", "quantifier": "every collection of distinct sets", "why_tests_cant": "Tests never nest sets; the failure depends on which pairs of elements are incomparable under inclusion.", "anchors": ["sources/set.hpp: Set::operator<", "sources/set.hpp: Set::add"]}
{"id": "C113", "title": "Set add of a present element never throws", "statement": "add(x) returns false and changes nothing when x is already in the set, whatever the size of the set.", "quantifier": "every set and element", "why_tests_cant": "Only a set of INT_MAX elements fails.", "anchors": ["sources/set.hpp: Set::add", "sources/utility.hpp: internal::check_full"]}
{"id": "C114", "title": "Set operators keep size() truthful", "statement": "After |, ^, |=, ^= or extend, size() equals the number of elements or an exception was thrown.", "quantifier": "every pair of sets", "why_tests_cant": "The wrap-around needs more than INT_MAX elements.", "anchors": ["sources/set.hpp: Set::operator|", "sources/set.hpp: Set::operator^", "sources/set.hpp: Set::extend", "sources/set.hpp: Set::size"]}
{"id": "C115", "title": "Set algebra", "statement": "&, | and ^ are commutative and associative, & and | distribute over each other, De Morgan's laws hold for -, a ^ b == (a | b) - (a & b), (a - b) | (a & b) == a, (a ^ b) ^ b == a.", "quantifier": "all triples of sets", "why_tests_cant": "Identities over all triples.", "anchors": ["sources/set.hpp: Set::operator&", "sources/set.hpp: Set::operator|", "sources/set.hpp: Set::operator-", "sources/set.hpp: Set::operator^"]}
{"id": "C116", "title": "Set construction depends only on the elements", "statement": "Two ranges give equal sets exactly when they contain the same elements, in whatever order and however often.", "quantifier": "all pairs of ranges", "why_tests_cant": "All permutations and repetitions.", "anchors": ["sources/set.hpp: Set::Set"]}
{"id": "C117", "title": "Dict equality is equality of maps", "statement": "d == e exactly when both map the same keys to the same values, whatever the order of insertion.", "quantifier": "all pairs of dicts", "why_tests_cant": "All insertion histories of both sides.", "anchors": ["sources/dict.hpp: Dict::operator=="]}
{"id": "C118", "title": "Dict add of a present key never throws", "statement": "add(k,v) returns false and changes nothing when k is already in the dict, whatever its size.", "quantifier": "every dict and key", "why_tests_cant": "Only a dict of INT_MAX entries fails.", "anchors": ["sources/dict.hpp: Dict::add", "sources/utility.hpp: internal::check_full"]}
{"id": "C119", "title": "Dict extend keeps size() truthful", "statement": "After extend, size() equals the number of entries or an exception was thrown.", "quantifier": "every dict and range", "why_tests_cant": "The wrap-around needs more than INT_MAX entries.", "anchors": ["sources/dict.hpp: Dict::extend", "sources/dict.hpp: Dict::size"]}
{"id": "C120", "title": "Str replace of the empty string inserts every new string", "statement": "replace(\"\", new) puts the whole of new before every character and at the end, also when new contains null characters.", "quantifier": "all strings", "why_tests_cant": "Null characters inside strings are not tested.", "anchors": ["sources/str.hpp: Str::replace"]}
{"id": "C121", "title": "Str assignment is defined", "statement": "Assigning, moving and extracting into a Str has defined behaviour.", "quantifier": "all strings", "why_tests_cant": "Writing a const object through const_cast happens to work on common compilers.", "anchors": ["sources/str.hpp: Str::operator=", "sources/str.hpp: operator>>"]}
{"id": "C122", "title": "Str to_decimal is defined for every string", "statement": "to_decimal() returns or throws for every string.", "quantifier": "all strings shorter than INT_MAX", "why_tests_cant": "Signed overflow of the exponent needs a literal with exponent above INT_MAX.", "anchors": ["sources/str.hpp: Str::to_decimal"]}
{"id": "C123", "title": "Str to_integer rejects malformed strings of every length", "statement": "to_integer() throws on every malformed string, whatever its length.", "quantifier": "all strings up to INT_MAX characters", "why_tests_cant": "Needs a string of exactly INT_MAX characters.", "anchors": ["sources/str.hpp: Str::to_integer"]}
{"id": "C124", "title": "Str order, equality and hash", "statement": "<=> is the lexicographic order by unsigned bytes, a total order whose equality is ==; == is equality of the character sequences; equal strings have equal hashes.", "quantifier": "all strings and any std::hash<std::string>", "why_tests_cant": "All strings.", "anchors": ["sources/str.hpp: Str::operator<=>", "sources/str.hpp: std::hash<pyincpp::Str>"]}
{"id": "C125", "title": "Str to_decimal is correctly rounded for short literals", "statement": "For a literal with mantissa up to 2**53 and either at most 22 decimals and no exponent, or no decimals and an exponent from 0 to 22, to_decimal() is the double nearest to the number denoted, provided pow(10,k) is exact for k up to 22.", "quantifier": "all such literals", "why_tests_cant": "Correct rounding for all literals.", "anchors": ["sources/str.hpp: Str::to_decimal"]}
{"id": "C126", "title": "Complex extraction reads the documented forms", "statement": "is >> z reads \"x\", \"xj\" and \"x+yj\" / \"x-yj\" (x, y floating-point literals) after any white space, stores the value the C library gives to each literal, and leaves what follows in the stream, so that white-space separated numbers are read one by one.", "quantifier": "all such texts and any correct strtod", "why_tests_cant": "All texts.", "anchors": ["sources/complex.hpp: operator>>(std::istream&, Complex&)"]}
{"id": "C127", "title": "Complex extraction terminates", "statement": "is >> z returns or throws for every stream.", "quantifier": "every stream content and state", "why_tests_cant": "Needs exhausted or blank streams; a test of that hangs.", "anchors": ["sources/complex.hpp: operator>>(std::istream&, Complex&)"]}
{"id": "C128", "title": "Complex extraction is defined on malformed text", "statement": "On text that is not a complex number is >> z throws \"Error: Wrong complex literal.\" and leaves z unchanged.", "quantifier": "every text", "why_tests_cant": "Reading an uninitialised char usually happens to throw.", "anchors": ["sources/complex.hpp: operator>>(std::istream&, Complex&)"]}
{"id": "C129", "title": "Complex extraction accepts only complex numbers", "statement": "When is >> z returns without an exception the text began with a number, a number and j, or a number, a signed number and j.", "quantifier": "every text", "why_tests_cant": "The accepted wrong texts are a vanishing fraction.", "anchors": ["sources/complex.hpp: operator>>(std::istream&, Complex&)"]}
{"id": "C130", "title": "A printed Complex can be read back", "statement": "is >> z on the text written by os << w stores w's printed value.", "quantifier": "every Complex", "why_tests_cant": "All values.", "anchors": ["sources/complex.hpp: operator<<(std::ostream&, const Complex&)", "sources/complex.hpp: operator>>(std::istream&, Complex&)"]}
{"id": "C131", "title": "Complex pow conventions", "statement": "pow(z, 0) is 1 for every z; pow(0, w) throws \"Error: Math domain error.\" for w other than 0; otherwise the polar formula is used.", "quantifier": "all base and exponent values and any libm", "why_tests_cant": "Bases and exponents near zero.", "anchors": ["sources/complex.hpp: Complex::pow"]}
{"id": "C132", "title": "Complex compound assignment", "statement": "z op= w stores z op w, also when w is z; when /= throws, z keeps its value; a moved-from Complex is zero.", "quantifier": "all Complex values", "why_tests_cant": "All values and aliasing.", "anchors": ["sources/complex.hpp: Complex::operator+=", "sources/complex.hpp: Complex::operator/=", "sources/complex.hpp: Complex::Complex(Complex&&)"]}
{"id": "C133", "title": "Complex identities", "statement": "For finite z: z/z is exactly 1 when |z|**2 does not overflow and z is not treated as zero, z*1, z/1 and z+0 have the value of z, z-z is zero.", "quantifier": "all finite Complex values", "why_tests_cant": "Rounding for all operands.", "anchors": ["sources/complex.hpp: Complex::operator/", "sources/complex.hpp: Complex::operator*"]}
{"id": "C134", "title": "Complex division yields the quotient when it is representable", "statement": "If a, b are finite, b is not zero and the parts of a/b are finite doubles, then a/b has no NaN part and approximates the quotient.", "quantifier": "all such Complex values", "why_tests_cant": "Overflow of |b|**2 needs |b| above 2**512.", "anchors": ["sources/complex.hpp: Complex::operator/"]}
{"id": "C135", "title": "Complex prints as (x+yj)", "statement": "os << z writes '(' real sign |imag| 'j)' where the sign is '-' exactly when imag < 0.", "quantifier": "every Complex and any double formatting", "why_tests_cant": "All values.", "anchors": ["sources/complex.hpp: operator<<(std::ostream&, const Complex&)"]}
{"id": "C136", "title": "The reading loop visits every Complex and ends", "statement": "while (is >> z) { ... } over white-space separated complex numbers runs its body once per number and then ends.", "quantifier": "every sequence of complex literals", "why_tests_cant": "Depends on the stream flags after the last token, for every content.", "anchors": ["sources/complex.hpp: operator>>(std::istream&, Complex&)"]}
{"id": "C137", "title": "Complex product and quotient have bounded rounding error", "statement": "Without overflow, each part of a*b is within (2u+u**2)(|x|+|y|) of x+y, the exact part, plus a constant times the smallest double; each part of a/b is within 8u(|x|+|y|)/|b|**2 of the exact part, plus an underflow term; u = 2**-53.", "quantifier": "all finite operands without overflow", "why_tests_cant": "A bound for all operands.", "anchors": ["sources/complex.hpp: Complex::operator*", "sources/complex.hpp: Complex::operator/"]}
{"id": "C138", "title": "Printed text determines the value", "statement": "Two objects of the same type, built from int, Int, Fraction and Str (without double quotes) with List, Deque, Set, Dict and one Tuple around them, that print the same text are the same.", "quantifier": "all types of any nesting depth and all their values", "why_tests_cant": "Infinitely many types and pairs of values.", "anchors": ["sources/utility.hpp: internal::print", "sources/int.hpp: operator<<(std::ostream&, const Int&)", "sources/fraction.hpp: operator<<(std::ostream&, const Fraction&)", "sources/tuple.hpp: operator<<(std::ostream&, const Tuple<Ts...>&)"]}
{"id": "C139", "title": "Printed containers of Str determine their elements", "statement": "Two List<Str>, Deque<Str>, Set<Str> or Dict<K, Str> that print the same text are the same.", "quantifier": "all strings", "why_tests_cant": "Depends on strings containing quotes.", "anchors": ["sources/str.hpp: operator<<(std::ostream&, const Str&)", "sources/utility.hpp: internal::print"]}
{"id": "C140", "title": "Values printed one after the other", "statement": "os << x << y << ... on a new stream writes the texts of the values in turn, whatever has been printed before.", "quantifier": "all sequences of values of all printable types", "why_tests_cant": "Stream state is carried from one value to the next.", "anchors": ["sources/utility.hpp: internal::print", "sources/int.hpp: operator<<(std::ostream&, const Int&)"]}
{"id": "C141", "title": "Printing leaves the formatting state of the stream alone", "statement": "os << x changes no formatting state except resetting the width: fill character, alignment, base and showpos are kept.", "quantifier": "all values and all streams that print in decimal", "why_tests_cant": "State left behind is not visible in the output.", "anchors": ["sources/int.hpp: operator<<(std::ostream&, const Int&)"]}
{"id": "C142", "title": "setw pads the printed value as a unit", "statement": "os << std::setw(n) << x writes the text of x padded to n characters.", "quantifier": "all values, widths, fill characters and alignments", "why_tests_cant": "All widths and values.", "anchors": ["sources/int.hpp: operator<<(std::ostream&, const Int&)", "sources/utility.hpp: internal::print", "sources/fraction.hpp: operator<<(std::ostream&, const Fraction&)"]}
{"id": "C143", "title": "std::hex and std::oct apply to Int", "statement": "os << std::hex << x and os << std::oct << x write x in that base, as for int.", "quantifier": "all Int values", "why_tests_cant": "All values.", "anchors": ["sources/int.hpp: operator<<(std::ostream&, const Int&)"]}
{"id": "C144", "title": "A call that throws changes nothing", "statement": "When an operation of List, Deque, Set, Dict, Int, Fraction or Complex, or an extraction, throws, every object keeps the value it had before.", "quantifier": "all operations, all arguments and aliasings, all exceptions", "why_tests_cant": "Every failing call must be checked for every object it could have touched.", "anchors": ["sources/list.hpp: List::insert", "sources/list.hpp: List::remove", "sources/deque.hpp: Deque::pop_back", "sources/set.hpp: Set::pop", "sources/dict.hpp: Dict::add", "sources/int.hpp: Int::operator/=", "sources/int.hpp: operator>>(std::istream&, Int&)", "sources/fraction.hpp: operator>>(std::istream&, Fraction&)", "sources/complex.hpp: operator>>(std::istream&, Complex&)"]}
{"id": "C145", "title": "Int(text) and Str(text).to_integer() agree", "statement": "On text without blanks, Int(text) and Str(text).to_integer(10) both give the same Int or both throw; every text Int accepts, to_integer accepts with the same value; a printed Int is read back by to_integer.", "quantifier": "all texts shorter than INT_MAX", "why_tests_cant": "Infinitely many texts.", "anchors": ["sources/int.hpp: Int::Int(const char*)", "sources/str.hpp: Str::to_integer"]}
{"id": "C146", "title": "Str to_decimal is accurate for long literals", "statement": "For literals of up to 300 digits denoting zero or a number between 10**-300 and 10**300, to_decimal() has relative error at most (n+5)*2**-51 for n digits, given a std::pow accurate to one unit in the last place.", "quantifier": "all such literals and all such std::pow", "why_tests_cant": "Error accumulates over the digits.", "anchors": ["sources/str.hpp: Str::to_decimal"]}
{"id": "C147", "title": "Str to_decimal is correctly rounded", "statement": "to_decimal() of an accepted finite literal is the double nearest to the number denoted, as float() in Python.", "quantifier": "all literals", "why_tests_cant": "Depends on the last bit.", "anchors": ["sources/str.hpp: Str::to_decimal"]}
{"id": "C148", "title": "Int expressions denote integers", "statement": "Every expression built from Int objects, int literals, +, -, *, /, unary - and abs() evaluates to the integer it denotes, or throws when a divisor is 0; so the laws of commutative rings and of truncated division hold between Int expressions.", "quantifier": "all expressions, all operand values", "why_tests_cant": "Unboundedly many expressions and values.", "anchors": ["sources/int.hpp: Int::operator+", "sources/int.hpp: Int::operator-", "sources/int.hpp: Int::operator*", "sources/int.hpp: Int::operator/", "sources/int.hpp: Int::abs"]}
{"id": "C149", "title": "Fraction expressions denote rationals", "statement": "Every expression built from fractions, int literals, +, -, *, /, unary - and abs() evaluates to the rational it denotes in lowest terms, throws when a divisor is 0, or overflows an int; so the laws of fields hold whenever both sides are defined.", "quantifier": "all expressions, all operand values", "why_tests_cant": "Unboundedly many expressions and values.", "anchors": ["sources/fraction.hpp: Fraction::operator+", "sources/fraction.hpp: Fraction::operator-", "sources/fraction.hpp: Fraction::operator*", "sources/fraction.hpp: Fraction::operator/"]}
{"id": "C150", "title": "Regrouping a Fraction expression keeps it defined", "statement": "If x + (y + z) is defined then so is (x + y) + z, with the same value.", "quantifier": "all fractions", "why_tests_cant": "Overflow on the way depends on the grouping.", "anchors": ["sources/fraction.hpp: Fraction::operator+"]}
{"id": "C151", "title": "List operations obey the laws of sequences", "statement": "+ is associative with the empty list as unit; repetition distributes over + and *; count is additive; -= and /= change the count of the removed element only; count, index and contains agree; reverse is an involution that turns + around; slicing backward reverses; rotations compose; sorting and uniquify are idempotent and independent of order, respectively repetition.", "quantifier": "all lists up to the capacity, all element types, all arguments", "why_tests_cant": "Laws relate several calls for all values.", "anchors": ["sources/list.hpp: List::operator+", "sources/list.hpp: List::operator*", "sources/list.hpp: List::operator-=", "sources/list.hpp: List::operator/=", "sources/list.hpp: List::operator<<=", "sources/list.hpp: List::reverse", "sources/list.hpp: List::sort", "sources/list.hpp: List::uniquify", "sources/list.hpp: List::count"]}
{"id": "C152", "title": "A List is the concatenation of its slices at every position", "statement": "l.slice(0, k) + l.slice(k, l.size()) == l for every k from 0 to l.size().", "quantifier": "all lists, all positions", "why_tests_cant": "All positions of all lists.", "anchors": ["sources/list.hpp: List::slice", "sources/list.hpp: List::operator+"]}
{"id": "C153", "title": "Str operations obey the laws of text", "statement": "count, find, contains, split and starts_with agree; replace is split followed by join and changes the size by count times the difference; replacing a character by a fresh one can be undone; slices concatenate, swap to the rotation and leave the erased string; reversal turns + around and exchanges starts_with and ends_with; rotations compose; repetition distributes; strip, lower and upper are idempotent.", "quantifier": "all strings shorter than INT_MAX, all arguments", "why_tests_cant": "Laws relate several calls for all values.", "anchors": ["sources/str.hpp: Str::count", "sources/str.hpp: Str::find", "sources/str.hpp: Str::split", "sources/str.hpp: Str::replace", "sources/str.hpp: Str::join", "sources/str.hpp: Str::slice", "sources/str.hpp: Str::erase", "sources/str.hpp: Str::operator<<", "sources/str.hpp: Str::reverse", "sources/str.hpp: Str::strip"]}
{"id": "C154", "title": "Loop counts of Int factorial, pow and log", "statement": "factorial() of n takes n rounds; pow() takes as many rounds as the exponent has binary digits, with and without modulus; log() to a base other than 10 takes as many rounds as its result, and to base 10 none.", "quantifier": "all operands of any size", "why_tests_cant": "Time is not asserted by tests and grows with the operands.", "anchors": ["sources/int.hpp: Int::factorial", "sources/int.hpp: Int::pow", "sources/int.hpp: Int::log"]}
{"id": "C155", "title": "Int is_prime tries divisors up to the square root", "statement": "is_prime() of a prime n tests the divisors 2 .. floor(sqrt(n)) and no more; of a composite it stops at the least factor, which is at most the square root; of n <= 1 it tests none.", "quantifier": "all integers", "why_tests_cant": "Time is not asserted by tests and grows with the operands.", "anchors": ["sources/int.hpp: Int::is_prime"]}
{"id": "C156", "title": "Int gcd takes at most five rounds per digit", "statement": "gcd(a, b) goes round its loop at most 5 times for every decimal digit of b, in whatever order and with whatever signs the arguments are given.", "quantifier": "all pairs of integers", "why_tests_cant": "The bound is attained only by particular pairs.", "anchors": ["sources/int.hpp: Int::gcd", "sources/utility.hpp: internal::gcd"]}
{"id": "C157", "title": "Int sqrt converges quadratically", "statement": "When sqrt(n) terminates (n + 1 not a square, or n < 4), it tests its loop condition at most log2(d) + 8 times for n of d decimal digits.", "quantifier": "all such integers of any size", "why_tests_cant": "Time is not asserted by tests; bounds the work for unlimited sizes.", "anchors": ["sources/int.hpp: Int::sqrt"]}
{"id": "C158", "title": "A container can be extended by itself", "statement": "l += l and l.extend(l.begin(), l.end()) double a List, likewise extend_back and extend_front of a Deque; extending a Set or Dict by itself changes nothing.", "quantifier": "all containers whose doubled size fits", "why_tests_cant": "Undefined behaviour that happens to work passes the tests, which contain this very call.", "anchors": ["sources/list.hpp: List::operator+=", "sources/list.hpp: List::extend", "sources/deque.hpp: Deque::extend_back", "sources/deque.hpp: Deque::extend_front", "sources/set.hpp: Set::extend", "sources/dict.hpp: Dict::extend"]}
{"id": "C159", "title": "Lists and Deques of Sets are ordered consistently with ==", "statement": "For Lists or Deques a, b, c of Sets: a <= b and b <= a imply a == b, and < is transitive.", "quantifier": "all lists of sets", "why_tests_cant": "Needs pairs of sets that are incomparable under inclusion.", "anchors": ["sources/list.hpp: List::operator<=>", "sources/deque.hpp: Deque::operator<=>", "sources/set.hpp: Set::operator<"]}
{"id": "C160", "title": "Sorting a List of Sets puts subsets first", "statement": "After sort() of a List of Sets no set precedes a proper subset of it.", "quantifier": "all lists of sets", "why_tests_cant": "Fails only with incomparable sets in between; formally undefined.", "anchors": ["sources/list.hpp: List::sort", "sources/set.hpp: Set::operator<"]}
{"id": "C161", "title": "A Dict can have Sets as keys", "statement": "A Dict whose keys are Sets keeps one entry per distinct key.", "quantifier": "all entries", "why_tests_cant": "Needs keys that are incomparable under inclusion.", "anchors": ["sources/dict.hpp: Dict::add", "sources/dict.hpp: Dict::operator[]", "sources/set.hpp: Set::operator<"]}
{"id": "C162", "title": "Nested sequences and pairs are totally ordered", "statement": "If the elements are totally ordered then so are Lists, Deques and Pairs of them, at any depth of nesting, with <= meaning < or ==; so these can be elements of a Set or keys of a Dict, and Lists of them can be sorted.", "quantifier": "all element types, all nestings", "why_tests_cant": "Unboundedly many types and values.", "anchors": ["sources/list.hpp: List::operator<=>", "sources/deque.hpp: Deque::operator<=>"]}
{"id": "C163", "title": "Fraction converts to the nearest double", "statement": "static_cast<double>(f) is the rational value of f rounded once to the nearest double; the conversion is monotone, keeps the sign, has relative error at most 2^-53, and is exact when the denominator is a power of two.", "quantifier": "all fractions in lowest terms with int parts", "why_tests_cant": "About 2^63 fractions; a second rounding would show for few of them.", "anchors": ["sources/fraction.hpp: Fraction::operator double"]}
{"id": "C164", "title": "Exactly one of <, == and > holds between Fractions", "statement": "For any two fractions for which < is defined at all, > is defined too and exactly one of x < y, x == y, x > y is true.", "quantifier": "all pairs of fractions", "why_tests_cant": "== goes through double and < through integers; they could disagree on pairs that tests do not reach.", "anchors": ["sources/fraction.hpp: Fraction::operator<=>", "sources/fraction.hpp: Fraction::operator double"]}
{"id": "C165", "title": "Equal Fractions have equal hashes", "statement": "x == y implies std::hash<Fraction>()(x) == std::hash<Fraction>()(y).", "quantifier": "all pairs of fractions", "why_tests_cant": "Fails only for parts beyond 2^26.", "anchors": ["sources/fraction.hpp: std::hash<Fraction>", "sources/fraction.hpp: Fraction::operator double"]}
{"id": "C166", "title": "Containers see their elements only through ==, < and <<", "statement": "If a function f between element types preserves ==, < and the printed text, then a program on List, Deque, Set or Dict whose literals are replaced by their images under f throws the same exceptions at the same places, prints the same text, answers the same, and leaves in every variable the images of what the original leaves.", "quantifier": "all element types, functions f, and sequences of calls", "why_tests_cant": "Quantifies over types and programs.", "anchors": ["sources/list.hpp: List", "sources/deque.hpp: Deque", "sources/set.hpp: Set", "sources/dict.hpp: Dict", "sources/utility.hpp: print"]}
{"id": "C167", "title": "Containers of Int behave as containers of integers", "statement": "Every sequence of calls on List, Deque, Set or Dict of Int behaves as the same calls on mathematical integers, of any size.", "quantifier": "all sequences of calls, all integers", "why_tests_cant": "Unbounded integers and call sequences.", "anchors": ["sources/list.hpp: List", "sources/deque.hpp: Deque", "sources/set.hpp: Set", "sources/dict.hpp: Dict", "sources/int.hpp: Int::operator<=>", "sources/int.hpp: Int::operator=="]}
{"id": "C168", "title": "Containers of Fraction behave as containers of rationals", "statement": "Every sequence of calls on List, Set or Dict of Fraction behaves as the same calls on rational numbers.", "quantifier": "all sequences of calls, all fractions", "why_tests_cant": "Comparisons overflow, and == merges neighbours, only for large parts.", "anchors": ["sources/list.hpp: List", "sources/set.hpp: Set", "sources/dict.hpp: Dict", "sources/fraction.hpp: Fraction::operator<=>", "sources/fraction.hpp: Fraction::operator double"]}
{"id": "C169", "title": "Str can be an element of any container", "statement": "The order of Str is a strict total order and == is equality, so Set, Dict and sort on Str behave as specified for them.", "quantifier": "all strings", "why_tests_cant": "All pairs and triples of strings.", "anchors": ["sources/str.hpp: Str::operator<=>"]}
{"id": "C170", "title": "A List of Complex can be searched and uniquified", "statement": "An element of a List<Complex> is found in it, the list equals itself, and the number of elements left by uniquify() does not depend on their order.", "quantifier": "all lists", "why_tests_cant": "Needs elements closer than the tolerance of ==, or infinities.", "anchors": ["sources/list.hpp: List::uniquify", "sources/list.hpp: List::index", "sources/list.hpp: List::count", "sources/complex.hpp: Complex::operator=="]}
{"id": "C171", "title": "double can be an element of any container", "statement": "< on double meets the precondition of sort, Set and Dict; an element is found where it was put; a Set depends only on which elements were inserted.", "quantifier": "all doubles", "why_tests_cant": "Fails for NaN and for negative zero only.", "anchors": ["sources/list.hpp: List::sort", "sources/list.hpp: List::index", "sources/set.hpp: Set::Set", "sources/dict.hpp: Dict::Dict"]}
{"id": "C172", "title": "Programs over Str behave as programs over texts", "statement": "Every sequence of declarations, assignments and calls on Str and List<Str> variables - construction, copy, +, *, <<, >>, reverse, lower, upper, erase, replace, strip, slice, format, join, split, indexing, search, comparison, to_integer, printing, iteration - throws, prints, answers and leaves in the variables what the same sequence does on plain sequences of characters, as long as no call of undefined behaviour is reached and all strings stay shorter than INT_MAX.", "quantifier": "all sequences of calls, all strings and arguments", "why_tests_cant": "Quantifies over programs; interactions of calls through shared variables.", "anchors": ["sources/str.hpp: Str", "sources/list.hpp: List::operator[]", "sources/list.hpp: List::operator+="]}
{"id": "C173", "title": "No call on Str has undefined behaviour", "statement": "Every call in a program over Str and List<Str> variables, with any int arguments, returns or throws an exception.", "quantifier": "all calls, all strings shorter than INT_MAX, all int arguments", "why_tests_cant": "Undefined behaviour need not be visible in a test.", "anchors": ["sources/str.hpp: Str::find", "sources/str.hpp: Str::contains", "sources/str.hpp: Str::erase", "sources/str.hpp: Str::operator>>", "sources/str.hpp: Str::operator*", "sources/str.hpp: Str::slice", "sources/str.hpp: Str::operator="]}
{"id": "C174", "title": "Assigning and moving Str objects has defined behaviour", "statement": "A program that copies, moves, assigns and move-assigns Str variables has defined behaviour, and the same as one that declares a new variable instead.", "quantifier": "all programs", "why_tests_cant": "The write to the const member usually works.", "anchors": ["sources/str.hpp: Str::Str", "sources/str.hpp: Str::operator="]}
{"id": "C175", "title": "No call on List, Deque, Set or Dict has undefined behaviour", "statement": "Every call in a program over variables of one container type, with any int arguments, returns or throws an exception.", "quantifier": "all calls, all containers of at most INT_MAX elements, all int arguments", "why_tests_cant": "Undefined behaviour need not be visible in a test; some cases need huge containers or INT_MIN.", "anchors": ["sources/list.hpp: List::operator+=", "sources/list.hpp: List::extend", "sources/list.hpp: List::operator*=", "sources/list.hpp: List::operator>>=", "sources/list.hpp: List::erase", "sources/list.hpp: List::slice", "sources/list.hpp: List::index", "sources/deque.hpp: Deque::operator>>=", "sources/deque.hpp: Deque::extend_front", "sources/set.hpp: Set::extend", "sources/dict.hpp: Dict::extend", "sources/dict.hpp: Dict::min", "sources/dict.hpp: Dict::max"]}
{"id": "C176", "title": "std::setw limits what an Int reads", "statement": "With a field width n on the stream, is >> x skips white space, reads the integer literal formed by the first n characters of the word and leaves the rest of the word in the stream; so a number can be read in two pieces a and b with value a * 10^k + b.", "quantifier": "all words, all widths", "why_tests_cant": "The tests read from streams in their default state.", "anchors": ["sources/int.hpp: operator>>", "sources/fraction.hpp: operator>>", "sources/complex.hpp: operator>>"]}
{"id": "C177", "title": "Reading uses up the field width", "statement": "After is >> x for an Int, a Fraction or a Complex the field width of the stream is 0, as after every formatted input of the standard library that looks at it.", "quantifier": "all streams", "why_tests_cant": "The tests read from streams in their default state.", "anchors": ["sources/int.hpp: operator>>", "sources/fraction.hpp: operator>>", "sources/complex.hpp: operator>>"]}
{"id": "C178", "title": "noskipws does not change what is read", "statement": "An Int, a Fraction or a Complex is read the same way from a stream with std::noskipws.", "quantifier": "all streams", "why_tests_cant": "The tests read from streams in their default state.", "anchors": ["sources/int.hpp: operator>>", "sources/fraction.hpp: operator>>", "sources/complex.hpp: operator>>"]}
{"id": "C179", "title": "A Fraction written in another base is read back", "statement": "A Fraction written under std::hex or std::oct and read under the same base is the same Fraction.", "quantifier": "all fractions", "why_tests_cant": "The tests write and read in decimal.", "anchors": ["sources/fraction.hpp: operator<<", "sources/fraction.hpp: operator>>"]}
{"id": "C180", "title": "The hash of an Int separates numbers", "statement": "For any two different Ints there are hash functions for int and signed char under which std::hash<Int> gives them different hashes.", "quantifier": "all pairs of Ints", "why_tests_cant": "Collisions are not errors, so no test looks for them; the number of values needs all Ints.", "anchors": ["sources/int.hpp: std::hash<pyincpp::Int>"]}
{"id": "C181", "title": "The hashes of Fraction, Complex and Str separate values", "statement": "Two values whose hashes agree for every hash of the parts are the same; with libstdc++ std::hash<Fraction> gives different fractions different hashes.", "quantifier": "all pairs of values", "why_tests_cant": "Collisions are not errors, so no test looks for them.", "anchors": ["sources/fraction.hpp: std::hash<pyincpp::Fraction>", "sources/complex.hpp: std::hash<pyincpp::Complex>", "sources/str.hpp: std::hash<pyincpp::Str>"]}
{"id": "C182", "title": "The exceptions of each class", "statement": "The text of an exception identifies its kind, and programs over a class can catch exactly the listed texts: five for List, three for Deque, two for Set, three for Dict, seven for Str, five for Int, one for Fraction arithmetic.", "quantifier": "all programs", "why_tests_cant": "Tests provoke single exceptions; that no other one can be seen needs all programs.", "anchors": ["sources/utility.hpp: check_bounds", "sources/utility.hpp: check_empty", "sources/utility.hpp: check_full", "sources/utility.hpp: check_zero", "sources/list.hpp: List::slice", "sources/dict.hpp: Dict::operator[]", "sources/str.hpp: Str::to_integer", "sources/int.hpp: Int::log"]}
{"id": "C183", "title": "Int arithmetic counts digits correctly up to INT_MAX digits", "statement": "With the int loop counters of the code taken as they are, +, -, ++, --, / and % on Ints of at most INT_MAX digits are exact, digits() is the number of digits, and * is exact when the operands have at most 2^31 digits together.", "quantifier": "all Ints of up to INT_MAX digits", "why_tests_cant": "A number that comes near the limit takes gigabytes and its product centuries.", "anchors": ["sources/int.hpp: Int::operator+=", "sources/int.hpp: Int::operator-=", "sources/int.hpp: Int::operator*=", "sources/int.hpp: Int::operator/=", "sources/int.hpp: Int::operator%=", "sources/int.hpp: Int::operator++", "sources/int.hpp: Int::digits", "sources/int.hpp: Int::abs_inc", "sources/int.hpp: Int::abs_dec"]}
{"id": "C184", "title": "Comparison of Ints is right at every size", "statement": "a <=> b on Ints is the order of the numbers, whatever their number of digits.", "quantifier": "all Ints", "why_tests_cant": "Needs numbers of more than 2^31 digits.", "anchors": ["sources/int.hpp: Int::operator<=>", "sources/int.hpp: Int::abs_cmp"]}
{"id": "C185", "title": "Arithmetic on Ints is defined at every size", "statement": "Sums, differences, products, quotients, remainders and conversions of Ints are defined and exact whatever the number of digits, and a + b is b + a.", "quantifier": "all Ints", "why_tests_cant": "Needs numbers of about 2^31 digits.", "anchors": ["sources/int.hpp: Int::operator+=", "sources/int.hpp: Int::operator-=", "sources/int.hpp: Int::operator*=", "sources/int.hpp: Int::operator/=", "sources/int.hpp: Int::operator%=", "sources/int.hpp: Int::digits", "sources/int.hpp: Int::to_integer"]}
{"id": "C186", "title": "A text of any length is read as an Int or refused", "statement": "Int(chars) returns the value of the literal or throws, whatever the length of the text.", "quantifier": "all texts", "why_tests_cant": "Needs texts of 2^31 characters or more.", "anchors": ["sources/int.hpp: Int::Int", "sources/int.hpp: Int::is_integer"]}
{"id": "C187", "title": "References into a Dict follow their entries", "statement": "A reference or pointer obtained from operator[] or get(key, lvalue) names one entry of one Dict until that entry is removed, popped, cleared or overwritten by assignment to the Dict; insertions and operations on other Dicts do not disturb it, a move takes it along, reading through it gives the value of the key and writing through it assigns to the key. Once the entry is gone the reference is dead, also when the key is added again.", "quantifier": "all programs over Dict and pointer variables, all key and value types with total orders", "why_tests_cant": "Interleavings of accesses and changes are unbounded, and a dead reference often still reads the old value.", "anchors": ["sources/dict.hpp: Dict::operator[]", "sources/dict.hpp: Dict::get", "sources/dict.hpp: Dict::add", "sources/dict.hpp: Dict::remove", "sources/dict.hpp: Dict::pop", "sources/dict.hpp: Dict::extend", "sources/dict.hpp: Dict::clear"]}
{"id": "C188", "title": "Dict::get returns a usable reference", "statement": "The reference returned by dict.get(key, defaults) can be used after the statement, whatever the key and whether or not the default is a temporary.", "quantifier": "all dicts, keys and defaults", "why_tests_cant": "A test that reads a dangling reference usually sees the value it expects.", "anchors": ["sources/dict.hpp: Dict::get"]}
{"id": "C189", "title": "Iterators over a Dict follow their entries", "statement": "An iterator obtained from find, begin or end stays at its entry (or at the end) through insertions, removals of other entries and moves; ++ and -- go to the next larger and next smaller key present at that moment; dereferencing gives key and value; two iterators of one Dict are equal exactly when they are at the same entry. A program with iterators is undefined only when it uses an iterator whose entry is gone or that was never set, leaves the range, dereferences the end, or compares iterators of different Dicts.", "quantifier": "all programs over Dict, pointer and iterator variables, all key and value types with total orders", "why_tests_cant": "Iterator validity depends on the whole history; a test that uses an invalid iterator may pass.", "anchors": ["sources/dict.hpp: Dict::find", "sources/dict.hpp: Dict::begin", "sources/dict.hpp: Dict::end", "sources/dict.hpp: Dict::remove", "sources/dict.hpp: Dict::add"]}
{"id": "C190", "title": "Loops over a Dict with iterators", "statement": "A loop from begin() to end() visits every entry exactly once by increasing key, one from rbegin() to rend() by decreasing key. Removing the entry of an iterator after advancing is safe and empties the Dict; advancing after removing is undefined on every Dict with an entry.", "quantifier": "all Dicts", "why_tests_cant": "Needs Dicts of every size.", "anchors": ["sources/dict.hpp: Dict::begin", "sources/dict.hpp: Dict::end", "sources/dict.hpp: Dict::rbegin", "sources/dict.hpp: Dict::rend", "sources/dict.hpp: Dict::remove"]}
{"id": "C191", "title": "References into a List name positions", "statement": "A reference or pointer to an element of a List names a position of that List until the elements move (a change that exceeds the capacity), the position or one before it is removed or inserted at, or the List is assigned to; operations that reorder or overwrite leave it at its position, a move takes it along, reading through it gives the element now there and writing through it assigns to that position. Using a reference in any other state is undefined, and nothing else about references is.", "quantifier": "all programs over List and pointer variables, all element types, all choices of capacities by the library", "why_tests_cant": "Whether a reference survives depends on the whole history and on capacities a test cannot control; a dangling read usually gives the old value.", "anchors": ["sources/list.hpp: List::operator[]", "sources/list.hpp: List::append", "sources/list.hpp: List::insert", "sources/list.hpp: List::remove", "sources/list.hpp: List::operator-=", "sources/list.hpp: List::operator/=", "sources/list.hpp: List::sort", "sources/list.hpp: List::clear"]}
{"id": "C192", "title": "A reference into a List stays valid while elements are appended", "statement": "auto& x = list[i]; followed by any number of append calls leaves x usable.", "quantifier": "all Lists, positions and numbers of appends", "why_tests_cant": "A test would have to read freed memory to notice, and may see the old value.", "anchors": ["sources/list.hpp: List::append", "sources/list.hpp: List::operator[]"]}
{"id": "C193", "title": "References into a Deque survive pushes and pops of other elements", "statement": "A reference or pointer to an element of a Deque stays with that element through pushes and extensions at either end and pops of other elements, also when the Deque is moved; it ends when its element is popped or the Deque is cleared or assigned to. Rotation, reversal and assignment through indices change the value it shows, not its position. Using a reference in any other state is undefined, and nothing else about references is.", "quantifier": "all programs over Deque and pointer variables, all element types", "why_tests_cant": "The history between taking and using a reference is unbounded, and a dangling read usually gives the old value.", "anchors": ["sources/deque.hpp: Deque::operator[]", "sources/deque.hpp: Deque::front", "sources/deque.hpp: Deque::back", "sources/deque.hpp: Deque::push_back", "sources/deque.hpp: Deque::push_front", "sources/deque.hpp: Deque::pop_back", "sources/deque.hpp: Deque::pop_front", "sources/deque.hpp: Deque::extend_back", "sources/deque.hpp: Deque::extend_front", "sources/deque.hpp: Deque::clear"]}
{"id": "C194", "title": "The calls of client code by List members", "statement": "index, contains, count, -=, /=, uniquify, map, filter and == of Lists call the client's ==, action or predicate on elements in order of position, with the element on the left, and stop where the result is settled (index, contains, -=: first equal; ==: first different; uniquify: per element at the first equal one kept). The result and the final List are the function of the answers given, whatever state the client code keeps and changes. With client code that neither throws nor depends on state the members are the functions of the other properties.", "quantifier": "all Lists, all client functions with any state, any exceptions", "why_tests_cant": "The client functions are arbitrary and may answer differently at each call.", "anchors": ["sources/list.hpp: List::index", "sources/list.hpp: List::contains", "sources/list.hpp: List::count", "sources/list.hpp: List::operator-=", "sources/list.hpp: List::operator/=", "sources/list.hpp: List::uniquify", "sources/list.hpp: List::map", "sources/list.hpp: List::filter"]}
{"id": "C195", "title": "An exception from client code leaves the List as it was", "statement": "If the client's ==, action or predicate throws during a member call of a List, the exception reaches the caller and the List has the elements it had before the call.", "quantifier": "all Lists, all members that call client code, all client functions", "why_tests_cant": "Needs an exception at every possible call.", "anchors": ["sources/list.hpp: List::filter", "sources/list.hpp: List::map", "sources/list.hpp: List::operator/=", "sources/list.hpp: List::operator-=", "sources/list.hpp: List::uniquify"]}
{"id": "C196", "title": "The number of comparisons made by List members", "statement": "count and /= make exactly one comparison per element; -= makes one per element up to and including the first equal one; uniquify makes between n-1 and n(n-1)/2 comparisons on n elements, n(n-1)/2 when all differ and n-1 when all are equal.", "quantifier": "all Lists and equalities", "why_tests_cant": "Exact counts for every length.", "anchors": ["sources/list.hpp: List::count", "sources/list.hpp: List::operator/=", "sources/list.hpp: List::operator-=", "sources/list.hpp: List::uniquify"]}
{"id": "C197", "title": "Counting words with a Dict", "statement": "for (auto&& w : ws) { dict.add(w, 0); dict[w] += 1; } on an empty Dict leaves exactly the words that occur in ws, each with its number of occurrences; with ws = text.split(sep, keep) this counts the pieces of the text.", "quantifier": "all sequences of at most INT_MAX words of any totally ordered type; all texts shorter than INT_MAX and all non-empty separators", "why_tests_cant": "Joins the behaviour of Str::split, Dict::add and Dict::operator[] over unbounded inputs.", "anchors": ["sources/dict.hpp: Dict::add", "sources/dict.hpp: Dict::operator[]", "sources/str.hpp: Str::split"]}
{"id": "C198", "title": "Sorting and uniquifying a List gives its Set", "statement": "list.sort().uniquify() leaves exactly the elements of Set(list) in the order of the Set, and list.uniquify() alone leaves as many elements as Set(list) has.", "quantifier": "all Lists over totally ordered element types", "why_tests_cant": "Relates two containers for every content.", "anchors": ["sources/list.hpp: List::sort", "sources/list.hpp: List::uniquify", "sources/set.hpp: Set::Set"]}
{"id": "C199", "title": "A telescoping sum of Fractions", "statement": "Fraction sum; for (int k = 1; k <= n; k++) sum += Fraction(1, k * (k + 1)); leaves n/(n+1) for every n for which n/(n+1) is a Fraction.", "quantifier": "all n", "why_tests_cant": "The first failing n is 1290, and the failure is undefined behaviour.", "anchors": ["sources/fraction.hpp: Fraction::operator+=", "sources/fraction.hpp: Fraction::operator+", "sources/fraction.hpp: Fraction::Fraction"]}
{"id": "C200", "title": "The Josephus problem with a Deque", "statement": "while (q.size() > 1) { q <<= k; q.pop_back(); } ends with the element at the seat given by J(1) = 0, J(n+1) = (J(n) + k) mod (n+1); for k = 2 the seat is 2(n - 2^j) with 2^j the largest power of two not above n.", "quantifier": "all Deques of 1 to INT_MAX elements and all k", "why_tests_cant": "Histories of rotations and pops of every length.", "anchors": ["sources/deque.hpp: Deque::operator<<=", "sources/deque.hpp: Deque::pop_back"]}
{"id": "C201", "title": "The digits of an Int in another base", "statement": "while (!n.is_zero()) { digits.push_back(n % b); n = n / b; } gives for n >= 0 and b >= 2 the digits of n in base b, least significant first and without a leading zero; in base 10 these are the digits of the printed number. With b = 0 it throws for n != 0, with b = 1 it never ends for n > 0.", "quantifier": "all non-negative n and all b >= 2", "why_tests_cant": "Joins % and / over loops of every length.", "anchors": ["sources/int.hpp: Int::operator%", "sources/int.hpp: Int::operator/", "sources/int.hpp: Int::is_zero"]}
{"id": "C202", "title": "Iterators over Lists are positions", "statement": "A program that takes, copies, moves, compares and dereferences iterators and reverse iterators of Lists between other statements behaves as on sequences where an iterator is a position from 0 to the length; it is undefined exactly when an iterator is used that was never set or has become invalid, when the end is dereferenced, when a range is left or runs backwards, or when iterators of different Lists are related.", "quantifier": "all programs, all element types, all capacities the library may choose", "why_tests_cant": "Histories of every length; invalid iterators cannot be observed by tests.", "anchors": ["sources/list.hpp: List::begin", "sources/list.hpp: List::end", "sources/list.hpp: List::rbegin", "sources/list.hpp: List::rend", "sources/list.hpp: List::find"]}
{"id": "C203", "title": "Loops over a List visit every element once, in order", "statement": "for (auto&& x : list) visits the elements in order and a loop from rbegin() to rend() visits them in reverse; List(begin, end) is a copy and List(rbegin, rend) the reversed list, also when assigned to the list itself; find(x) is at the first x or at the end.", "quantifier": "all Lists, all loop bodies that keep the iterators", "why_tests_cant": "Lists of every length and every body.", "anchors": ["sources/list.hpp: List::begin", "sources/list.hpp: List::end", "sources/list.hpp: List::rbegin", "sources/list.hpp: List::rend", "sources/list.hpp: List::find", "sources/list.hpp: List::List"]}
{"id": "C204", "title": "A List can be changed in a loop over it", "statement": "The body of a range-for over a List may append to, insert into or remove from that List.", "quantifier": "all non-empty Lists and all statements that insert, remove or replace", "why_tests_cant": "Undefined behaviour that usually goes unnoticed.", "anchors": ["sources/list.hpp: List::begin", "sources/list.hpp: List::end", "sources/list.hpp: List::operator+=", "sources/list.hpp: List::insert", "sources/list.hpp: List::remove"]}
{"id": "C205", "title": "Iterators over Deques are positions", "statement": "A program that takes, copies, moves, compares and dereferences iterators and reverse iterators of Deques, makes Deques from ranges and extends Deques by ranges, between other statements with Deques and references to their elements, behaves as on sequences where an iterator is a position from 0 to the length; it is undefined exactly when an iterator is used that was never set or has become invalid, when the end is dereferenced, when a range is left or runs backwards or is a range of the Deque that is extended, or when iterators of different Deques are related.", "quantifier": "all programs, all element types", "why_tests_cant": "Histories of every length; invalid iterators cannot be observed by tests.", "anchors": ["sources/deque.hpp: Deque::begin", "sources/deque.hpp: Deque::end", "sources/deque.hpp: Deque::rbegin", "sources/deque.hpp: Deque::rend", "sources/deque.hpp: Deque::extend_back", "sources/deque.hpp: Deque::extend_front"]}
{"id": "C206", "title": "Loops over a Deque visit every element once, in order", "statement": "for (auto&& x : deque) visits the elements in order and a loop from rbegin() to rend() visits them in reverse; pushing each to the back of another Deque appends a copy, pushing each to its front prepends the reversed sequence; Deque(begin, end) is a copy and Deque(rbegin, rend) the reversed deque, also when assigned to the deque itself; extend_back(begin, end) and extend_front(begin, end) insert the elements in order.", "quantifier": "all Deques, all loop bodies that keep the iterators", "why_tests_cant": "Deques of every length and every body.", "anchors": ["sources/deque.hpp: Deque::begin", "sources/deque.hpp: Deque::end", "sources/deque.hpp: Deque::rbegin", "sources/deque.hpp: Deque::rend", "sources/deque.hpp: Deque::Deque", "sources/deque.hpp: Deque::extend_back", "sources/deque.hpp: Deque::extend_front"]}
{"id": "C207", "title": "Iterators of a Deque last as long as references to its elements", "statement": "An iterator to an element of a Deque can be used as long as a reference to that element: pushes at either end keep it, pops keep it unless they remove its element, and the end() taken before a loop stays usable while the elements before it are popped.", "quantifier": "all Deques and all positions", "why_tests_cant": "Undefined behaviour that usually goes unnoticed, in histories of every length.", "anchors": ["sources/deque.hpp: Deque::begin", "sources/deque.hpp: Deque::end", "sources/deque.hpp: Deque::push_back", "sources/deque.hpp: Deque::push_front", "sources/deque.hpp: Deque::pop_front", "sources/deque.hpp: Deque::pop_back"]}
{"id": "C208", "title": "Iterators over Sets are elements", "statement": "A program that takes, copies, moves, compares and dereferences iterators and reverse iterators of Sets, makes Sets from ranges and extends Sets by ranges, between other statements with Sets, behaves as on mathematical sets where an iterator is at an element or past all of them, ++ goes to the next larger and -- to the next smaller element; it is undefined exactly when an iterator is used that was never set or whose element or set is gone, when the end is dereferenced or incremented, when the least element is decremented, when a range runs backwards or is of the Set that is extended, or when iterators of different Sets are related.", "quantifier": "all programs, all element types with a strict total order", "why_tests_cant": "Histories of every length; invalid iterators cannot be observed by tests.", "anchors": ["sources/set.hpp: Set::begin", "sources/set.hpp: Set::end", "sources/set.hpp: Set::rbegin", "sources/set.hpp: Set::rend", "sources/set.hpp: Set::find", "sources/set.hpp: Set::extend"]}
{"id": "C209", "title": "Loops over a Set visit every element once, in increasing order", "statement": "for (const auto& x : set) visits the elements in increasing order and a loop from rbegin() to rend() in decreasing order; adding each to another Set makes the union and removing each from another Set the difference, with add and remove telling whether the other Set changed; Set(begin, end) and Set(rbegin, rend) are copies, also when assigned to the set itself; Set(find(x), end) has the elements from x on; extend(begin, end) with another Set makes the union and keeps all iterators.", "quantifier": "all Sets, all loop bodies that keep the set and the iterators", "why_tests_cant": "Sets of every size and every body.", "anchors": ["sources/set.hpp: Set::begin", "sources/set.hpp: Set::end", "sources/set.hpp: Set::rbegin", "sources/set.hpp: Set::rend", "sources/set.hpp: Set::add", "sources/set.hpp: Set::remove", "sources/set.hpp: Set::Set", "sources/set.hpp: Set::extend"]}
{"id": "C210", "title": "An iterator of a Set lasts as long as its element", "statement": "An iterator to an element of a Set can be used after any statement exactly when the element is still in the Set and the Set was not assigned; moving the Set takes the iterator along. So elements may be removed in a loop that has already advanced past them: the loop removes exactly those it is asked to. A loop that adds f(x) for each x visits what it adds as long as f does not go down, and ends with everything f reaches.", "quantifier": "all Sets, all statements, all predicates f, all growing f into a finite set", "why_tests_cant": "Histories of every length; the closure is reached by elements added during the loop.", "anchors": ["sources/set.hpp: Set::add", "sources/set.hpp: Set::remove", "sources/set.hpp: Set::begin", "sources/set.hpp: Set::end"]}
{"id": "C211", "title": "A Set can be changed in a range-for over it", "statement": "The body of a range-for over a Set may remove the current element from that Set, and elements the body adds are visited.", "quantifier": "all non-empty Sets", "why_tests_cant": "Undefined behaviour that usually goes unnoticed.", "anchors": ["sources/set.hpp: Set::begin", "sources/set.hpp: Set::remove", "sources/set.hpp: Set::add"]}
{"id": "C212", "title": "A Fraction is read in the number base of the stream", "statement": "Under std::dec, std::oct or std::hex an integer text of the base (digits in either case, an optional sign, in hexadecimal one optional prefix 0x or 0X) that begins with a sign or a decimal digit is read as a Fraction with that value, and two of them with a slash between as their quotient, up to the white space that follows; a text that begins with a letter digit is refused with nothing consumed, and a second prefix is refused.", "quantifier": "all texts and values in range, all three bases", "why_tests_cant": "The tests read decimal text only.", "anchors": ["sources/fraction.hpp: operator>>"]}
{"id": "C213", "title": "Pointers and iterators into a Str are positions in its text", "statement": "A client program that uses data(), the address of an element, begin(), end() and the reverse iterators of Strs together with the other members behaves like one on texts and positions. A pointer may also read the null character behind the text and stand behind it. The undefined statements are exactly: using a pointer that was never set or is lost, leaving the characters, reading at the last position, relating pointers into different Strs, a backwards range, and the calls that are undefined without pointers.", "quantifier": "all programs, all texts shorter than INT_MAX", "why_tests_cant": "Programs of every length; undefined behaviour cannot be observed reliably.", "anchors": ["sources/str.hpp: Str::data", "sources/str.hpp: Str::operator[]", "sources/str.hpp: Str::begin", "sources/str.hpp: Str::end", "sources/str.hpp: Str::Str"]}
{"id": "C214", "title": "A pointer into a Str lasts until the Str is replaced", "statement": "The address of v[i] is a pointer to the character v[i] gives. It reads the same character after any program that does not assign to v, move from v or declare v anew; a statement that throws does not harm it. After an assignment, a move or a new declaration that did not throw it can no longer be read.", "quantifier": "all programs, all Strs, all positions", "why_tests_cant": "Histories of every length; a dangling pointer often reads the old character.", "anchors": ["sources/str.hpp: Str::operator[]", "sources/str.hpp: Str::operator="]}
{"id": "C215", "title": "Loops and ranges over a Str cover all its characters", "statement": "A range-for over a Str runs its body once for every character in order, null characters included. The Str made of the range from begin() to end() is a copy and the one from rbegin() to rend() is the reversal, also in place; the one made of two pointers is the part between them.", "quantifier": "all Strs, all bodies that keep the Str and the iterators", "why_tests_cant": "All lengths, all bodies.", "anchors": ["sources/str.hpp: Str::begin", "sources/str.hpp: Str::end", "sources/str.hpp: Str::rbegin", "sources/str.hpp: Str::rend"]}
{"id": "C216", "title": "As null-terminated characters a Str ends at its first null character", "statement": "data() points to the characters followed by a null character. A loop from data() to a null character, the length it finds, and the Str made of a pointer cover the characters up to the first null character. A Str may be assigned from a pointer into itself; the pointer is lost then, and if writing to a const member is undefined, so is the assignment.", "quantifier": "all Strs, all positions, all bodies that keep the Str and the pointer", "why_tests_cant": "Texts with null characters at every place.", "anchors": ["sources/str.hpp: Str::data", "sources/str.hpp: Str::Str", "sources/str.hpp: Str::operator="]}
{"id": "C217", "title": "The Str made of data() equals the Str", "statement": "Str(s.data()) == s for every Str s.", "quantifier": "all Strs", "why_tests_cant": "The tests have no text with a null character.", "anchors": ["sources/str.hpp: Str::data", "sources/str.hpp: Str::Str"]}
{"id": "C218", "title": "Sets survive exceptions of the comparison", "statement": "A client program on Sets whose elements' operator< and operator== are code of the client, with a state of its own, that may throw: the program behaves like one on mathematical sets. When a comparison throws, the exception reaches the client unchanged, and unless the call is extend no Set has other elements than before. If the client catches nothing, no comparison has thrown. Nothing becomes undefined that is not undefined anyway.", "quantifier": "all programs, all comparisons that answer according to a strict total order when they answer, all shapes of the search trees", "why_tests_cant": "The exception may come from any comparison of any call; the tests use comparisons that never throw.", "anchors": ["sources/set.hpp: Set::add", "sources/set.hpp: Set::remove", "sources/set.hpp: Set::contains", "sources/set.hpp: Set::operator&", "sources/set.hpp: Set::operator|=", "sources/set.hpp: Set::operator<="]}
{"id": "C219", "title": "extend does everything or nothing", "statement": "When a comparison throws during extend of a Set or Dict, the container is as it was before.", "quantifier": "all Sets and Dicts, all ranges", "why_tests_cant": "The exception may come from any comparison; the tests use comparisons that never throw.", "anchors": ["sources/set.hpp: Set::extend", "sources/dict.hpp: Dict::extend"]}
{"id": "C220", "title": "Dicts survive exceptions of the comparisons", "statement": "A client program on Dicts whose keys' and values' operator< and operator== are code of the client that may throw behaves like one on finite maps. When a comparison throws, the exception reaches the client unchanged, and unless the call is extend no Dict has other entries than before. If the client catches nothing, no comparison has thrown. Nothing becomes undefined that is not undefined anyway.", "quantifier": "all programs, all comparisons that answer according to strict total orders when they answer, all shapes of the search trees", "why_tests_cant": "The exception may come from any comparison of any call; the tests use comparisons that never throw.", "anchors": ["sources/dict.hpp: Dict::add", "sources/dict.hpp: Dict::remove", "sources/dict.hpp: Dict::operator[]", "sources/dict.hpp: Dict::get", "sources/dict.hpp: Dict::keys", "sources/dict.hpp: Dict::values", "sources/dict.hpp: Dict::items"]}
{"id": "C221", "title": "The number of comparisons Sets and Dicts make", "statement": "On a Set of n elements contains makes at most 2 log2(n+1) + 1 comparisons, add one more and remove twice as many; for a Dict operator[] and contains make as many as contains of a Set, and get twice as many. ==, <, <=, >, >=, &, |, -, ^ make a number linear in the sizes, and extend by increasing elements above all others makes two for each.", "quantifier": "all Sets and Dicts, all orders, all red-black trees", "why_tests_cant": "A bound for all sizes.", "anchors": ["sources/set.hpp: Set::contains", "sources/set.hpp: Set::add", "sources/set.hpp: Set::remove", "sources/set.hpp: Set::operator&", "sources/set.hpp: Set::operator|", "sources/set.hpp: Set::operator-", "sources/set.hpp: Set::operator^", "sources/dict.hpp: Dict::get"]}
{"id": "C222", "title": "Memory that runs out never gives a wrong Int", "statement": "Every constructor, operator, member function and function of number theory of Int, called on a machine whose allocations may fail, gives exactly the result it gives with enough memory, or throws std::bad_alloc; it throws std::bad_alloc exactly when one of its allocations failed. Library exceptions and undefined behaviour are the same as with enough memory.", "quantifier": "all Ints with all capacities, all sequences of failing allocations, all growth policies of std::vector", "why_tests_cant": "The tests never run out of memory; every allocation of every call can fail.", "anchors": ["sources/int.hpp: Int::operator*=", "sources/int.hpp: Int::operator/=", "sources/int.hpp: Int::pow", "sources/int.hpp: Int::gcd", "sources/int.hpp: Int::is_prime"]}
{"id": "C223", "title": "A call that runs out of memory leaves the Int as it was", "statement": "When std::bad_alloc leaves a member function that changes the Int (=, +=, -=, *=, /=, %=, ++, --), the Int has the value it had before.", "quantifier": "all Ints with all capacities, all sequences of failing allocations", "why_tests_cant": "The tests never run out of memory.", "anchors": ["sources/int.hpp: Int::operator=", "sources/int.hpp: Int::operator+=", "sources/int.hpp: Int::operator*=", "sources/int.hpp: Int::operator/=", "sources/int.hpp: Int::operator%="]}
{"id": "C224", "title": "After running out of memory an Int is still a number", "statement": "When std::bad_alloc leaves a member function that changes the Int, the Int is a canonical number, so that it can be printed and used.", "quantifier": "all Ints with all capacities, all sequences of failing allocations", "why_tests_cant": "The tests never run out of memory.", "anchors": ["sources/int.hpp: Int::operator++", "sources/int.hpp: Int::operator--", "sources/int.hpp: Int::operator=", "sources/int.hpp: Int::operator+="]}
{"id": "C225", "title": "Integer programs that catch std::bad_alloc", "statement": "A client program on Int variables in which every statement has a handler for exceptions behaves on a machine with failing allocations like one on integers whose statements may fail: a statement that stores the result of a function leaves all variables as they were; = may give the variable the sign of the source, *= the sign of the product, /= and %= may leave the absolute value minus a multiple of the divisor; +=, -=, ++ and -- leave a non-zero variable as it was. The only exception are =, +=, ++ and -- on a variable that is zero. If no allocation fails, the program is one on integers.", "quantifier": "all programs, all sequences of failing allocations", "why_tests_cant": "Histories of every length with every pattern of failing allocations.", "anchors": ["sources/int.hpp: Int::operator=", "sources/int.hpp: Int::operator+=", "sources/int.hpp: Int::operator/=", "sources/int.hpp: Int::operator++"]}
{"id": "C226", "title": "The number of allocations of Int", "statement": "With enough memory a copy, unary minus and abs make one allocation, none for zero; a literal makes one; = makes one if the digits do not fit into the capacity; += and -= make at most two; *= makes two, and a third if the product does not fit; /= makes three plus the sum of the decimal digits of the quotient and %= two plus that sum, unless the divisor has more digits, when they make none; ++ and -- make one if there is no room for a further digit and none towards zero. The binary operators make in addition one for the copy of the left operand and one for a non-zero result.", "quantifier": "all Ints with all capacities, all growth policies of std::vector", "why_tests_cant": "Exact numbers for all operands; the tests do not count allocations.", "anchors": ["sources/int.hpp: Int::operator=", "sources/int.hpp: Int::operator+=", "sources/int.hpp: Int::operator-=", "sources/int.hpp: Int::operator*=", "sources/int.hpp: Int::operator/=", "sources/int.hpp: Int::operator%=", "sources/int.hpp: Int::operator++"]}
{"id": "C227", "title": "Lists whose elements may fail to be copied", "statement": "When the copy constructor or copy assignment of the elements may throw and memory may run out, every member of List gives the result it gives otherwise, or lets the first exception through unchanged. remove, -=, /=, rotations, reverse, sort, erase, map, clear, moving and the members that only read copy nothing and cannot fail that way. Undefined behaviour does not become more.", "quantifier": "all Lists with all capacities, all positions of the failing copy or allocation, elements with and without noexcept move, all growth policies of std::vector", "why_tests_cant": "The tests use elements whose copies never throw; every copy of every call can fail.", "anchors": ["sources/list.hpp: List::insert", "sources/list.hpp: List::operator+=", "sources/list.hpp: List::operator*=", "sources/list.hpp: List::slice", "sources/list.hpp: List::sort"]}
{"id": "C228", "title": "A List call that throws leaves the Lists as they were", "statement": "When an exception of a copy or of an allocation leaves a member of List, every List has the elements it had before.", "quantifier": "all Lists with all capacities, all positions of the failing copy or allocation", "why_tests_cant": "The tests use elements whose copies never throw.", "anchors": ["sources/list.hpp: List::filter", "sources/list.hpp: List::operator+=", "sources/list.hpp: List::extend", "sources/list.hpp: List"]}
{"id": "C229", "title": "List calls that are all or nothing", "statement": "insert, appending an element, *=, uniquify, slice, the operators + - * / that make a new List, construction and assignment of a new List either do what they are for or, when a copy or an allocation throws, leave all Lists as they were. So do += of a List and extend when there is storage for all elements, when the allocation is what fails, or when the elements have no noexcept move.", "quantifier": "all Lists with all capacities, all positions of the failing copy or allocation", "why_tests_cant": "The tests use elements whose copies never throw.", "anchors": ["sources/list.hpp: List::insert", "sources/list.hpp: List::operator+=", "sources/list.hpp: List::operator*=", "sources/list.hpp: List::uniquify", "sources/list.hpp: List::slice", "sources/list.hpp: List::operator+"]}
{"id": "C230", "title": "List programs that catch every exception", "statement": "A client program on Lists in which every statement has a handler behaves like one on sequences whose statements may fail: a statement that fails leaves everything as it was, except that v = w may leave the first elements of w followed by the rest of v, v.filter(p) the first elements to be kept followed by the rest of v, and v += w and v.extend(w) what moving leaves of the elements of v. It is undefined only if a statement is undefined on the sequences it meets.", "quantifier": "all programs, all patterns of failing copies and allocations", "why_tests_cant": "Histories of every length with every pattern of failures.", "anchors": ["sources/list.hpp: List::filter", "sources/list.hpp: List::operator+=", "sources/list.hpp: List::extend", "sources/list.hpp: List::insert"]}
{"id": "C231", "title": "The number of copies and allocations of List", "statement": "Every statement on Lists that ends without exception makes a definite number of element copies and allocations: u = v + x copies every element of v twice, v *= n makes every element of the result three times, slice copies every element twice besides what the growing buffer needs, v.filter(p) copies the elements it keeps, the statements that copy nothing make none.", "quantifier": "all Lists with all capacities, all growth policies of std::vector, elements with and without noexcept move", "why_tests_cant": "Exact numbers for all Lists; the tests do not count copies.", "anchors": ["sources/list.hpp: List::operator+", "sources/list.hpp: List::operator*", "sources/list.hpp: List::slice", "sources/list.hpp: List::filter", "sources/list.hpp: List::uniquify"]}
{"id": "C232", "title": "Deques whose elements may fail to be copied", "statement": "When the copy constructor or copy assignment of the elements may throw and memory may run out, every member of Deque gives the result it gives otherwise, or lets the first exception through unchanged. pop_back, pop_front, >>=, <<=, reverse, clear, moving and the members that only read copy nothing and cannot fail that way. Undefined behaviour does not become more.", "quantifier": "all Deques, all positions of the failing copy or allocation, all numbers of blocks that std::deque allocates", "why_tests_cant": "The tests use elements whose copies never throw; every copy of every call can fail.", "anchors": ["sources/deque.hpp: Deque::push_back", "sources/deque.hpp: Deque::push_front", "sources/deque.hpp: Deque::extend_back", "sources/deque.hpp: Deque::extend_front", "sources/deque.hpp: Deque::pop_front"]}
{"id": "C233", "title": "A Deque call that throws leaves the Deques as they were", "statement": "When an exception of a copy or of an allocation leaves a member of Deque, every Deque has the elements it had before.", "quantifier": "all Deques, all positions of the failing copy or allocation", "why_tests_cant": "The tests use elements whose copies never throw.", "anchors": ["sources/deque.hpp: Deque", "sources/deque.hpp: Deque::push_back"]}
{"id": "C234", "title": "Deque calls that are all or nothing", "statement": "push_back, push_front, extend_back, extend_front, construction, and assignment to an element either do what they are for or, when a copy or an allocation throws, leave all Deques as they were. Only v = w does not.", "quantifier": "all Deques, all positions of the failing copy or allocation", "why_tests_cant": "The tests use elements whose copies never throw.", "anchors": ["sources/deque.hpp: Deque::push_back", "sources/deque.hpp: Deque::push_front", "sources/deque.hpp: Deque::extend_back", "sources/deque.hpp: Deque::extend_front", "sources/deque.hpp: Deque::operator[]"]}
{"id": "C235", "title": "Deque programs that catch every exception", "statement": "A client program on Deques in which every statement has a handler behaves like one on sequences whose statements may fail: a statement that fails leaves everything as it was, except that v = w may leave the first elements of w followed by the rest of v. It is undefined only through a move of a Deque to itself, extending a Deque by itself, or v >>= INT_MIN.", "quantifier": "all programs, all patterns of failing copies and allocations", "why_tests_cant": "Histories of every length with every pattern of failures.", "anchors": ["sources/deque.hpp: Deque::push_back", "sources/deque.hpp: Deque::extend_back", "sources/deque.hpp: Deque::operator>>="]}
{"id": "C236", "title": "The number of copies and allocations of Deque", "statement": "Every statement on Deques that ends without exception makes a definite number of element copies and allocations: push makes one copy, extend one for each element of the range, v = w one for each element of w, assignment to an element one; room is made at most once per call, and by v = w only if w is longer than v. The others make none.", "quantifier": "all Deques, all numbers of blocks that std::deque allocates", "why_tests_cant": "Exact numbers for all Deques; the tests do not count copies.", "anchors": ["sources/deque.hpp: Deque::push_back", "sources/deque.hpp: Deque::extend_back", "sources/deque.hpp: Deque::extend_front"]}
{"id": "C237", "title": "Sets whose elements may fail to be copied", "statement": "When copying an element may throw and memory may run out, every member of Set gives the result it gives otherwise, or lets the first exception through unchanged. remove, clear, contains, comparisons, moving and printing copy nothing and cannot fail that way; add of an element that is there cannot either. Undefined behaviour does not become more, and the Sets stay sorted and free of duplicates.", "quantifier": "all Sets, all positions of the failing copy or allocation, all strict total orders", "why_tests_cant": "The tests use elements whose copies never throw; every copy of every call can fail.", "anchors": ["sources/set.hpp: Set::add", "sources/set.hpp: Set::pop", "sources/set.hpp: Set::extend", "sources/set.hpp: Set::operator|", "sources/set.hpp: Set::min"]}
{"id": "C238", "title": "A Set call that throws leaves the Sets as they were", "statement": "When an exception of a copy or of an allocation leaves a member of Set, every Set has the elements it had before.", "quantifier": "all Sets, all positions of the failing copy or allocation", "why_tests_cant": "The tests use elements whose copies never throw.", "anchors": ["sources/set.hpp: Set::pop", "sources/set.hpp: Set::extend", "sources/set.hpp: Set"]}
{"id": "C239", "title": "Set calls that are all or nothing", "statement": "add, the operators & | - ^ and &= |= -= ^=, min, max and construction either do what they are for or, when a copy or an allocation throws, leave all Sets as they were. Only v = w, pop and extend do not.", "quantifier": "all Sets, all positions of the failing copy or allocation", "why_tests_cant": "The tests use elements whose copies never throw.", "anchors": ["sources/set.hpp: Set::add", "sources/set.hpp: Set::operator&=", "sources/set.hpp: Set::operator|=", "sources/set.hpp: Set::operator-=", "sources/set.hpp: Set::operator^="]}
{"id": "C240", "title": "Set programs that catch every exception", "statement": "A client program on Sets in which every statement has a handler behaves like one on mathematical sets whose statements may fail: a statement that fails leaves everything as it was, except that v = w leaves v empty, v.pop() loses the element it should have returned, and v.extend(...) leaves v extended by the elements of the range before a new one. It is undefined only through a move of a Set to itself or extending a Set by itself.", "quantifier": "all programs, all patterns of failing copies and allocations, all strict total orders", "why_tests_cant": "Histories of every length with every pattern of failures.", "anchors": ["sources/set.hpp: Set::pop", "sources/set.hpp: Set::extend", "sources/set.hpp: Set::add"]}
{"id": "C241", "title": "The number of copies and allocations of Set", "statement": "Every statement on Sets that ends without exception makes a definite number of element copies and allocations: one of each for every element that comes in, so & | - ^ and the assigning operators copy every element of the result once; v = w copies every element of w and allocates only the nodes that v did not have; pop, min and max copy one element; the others make none.", "quantifier": "all Sets", "why_tests_cant": "Exact numbers for all Sets; the tests do not count copies.", "anchors": ["sources/set.hpp: Set::add", "sources/set.hpp: Set::operator|", "sources/set.hpp: Set::operator&=", "sources/set.hpp: Set::pop"]}
{"id": "C242", "title": "Dicts whose keys and values may fail to be copied", "statement": "When copying a key or a value may throw and memory may run out, every member of Dict gives the result it gives otherwise, or lets the first exception through unchanged. v[k], get, contains, remove, clear, comparing, moving and printing copy nothing and cannot fail that way; add of a key that is there can, since it makes a pair first. Undefined behaviour does not become more, and the Dicts stay sorted with one value for each key.", "quantifier": "all Dicts, all positions of the failing copy or allocation, all strict total orders", "why_tests_cant": "The tests use keys and values whose copies never throw; every copy of every call can fail.", "anchors": ["sources/dict.hpp: Dict::add", "sources/dict.hpp: Dict::pop", "sources/dict.hpp: Dict::extend", "sources/dict.hpp: Dict::items", "sources/dict.hpp: Dict::min"]}
{"id": "C243", "title": "A Dict call that throws leaves the Dicts as they were", "statement": "When an exception of a copy or of an allocation leaves a member of Dict, every Dict has the entries it had before.", "quantifier": "all Dicts, all positions of the failing copy or allocation", "why_tests_cant": "The tests use keys and values whose copies never throw.", "anchors": ["sources/dict.hpp: Dict::pop", "sources/dict.hpp: Dict::extend", "sources/dict.hpp: Dict"]}
{"id": "C244", "title": "Dict calls that are all or nothing", "statement": "add, v[k] = x, keys, values, items, min, max and construction either do what they are for or, when a copy or an allocation throws, leave all Dicts as they were. Only v = w, pop and extend do not.", "quantifier": "all Dicts, all positions of the failing copy or allocation", "why_tests_cant": "The tests use keys and values whose copies never throw.", "anchors": ["sources/dict.hpp: Dict::add", "sources/dict.hpp: Dict::operator[]", "sources/dict.hpp: Dict::keys", "sources/dict.hpp: Dict::values", "sources/dict.hpp: Dict::items"]}
{"id": "C245", "title": "Dict programs that catch every exception", "statement": "A client program on Dicts in which every statement has a handler behaves like one on finite maps whose statements may fail: a statement that fails leaves everything as it was, except that v = w leaves v empty, v.pop() loses the entry it should have returned, and v.extend(...) leaves v extended by the entries of the range before one with a new key. It is undefined only through a move of a Dict to itself, extending a Dict by itself, or min or max of a Dict that is empty at that moment.", "quantifier": "all programs, all patterns of failing copies and allocations, all strict total orders", "why_tests_cant": "Histories of every length with every pattern of failures.", "anchors": ["sources/dict.hpp: Dict::pop", "sources/dict.hpp: Dict::extend", "sources/dict.hpp: Dict::add", "sources/dict.hpp: Dict::min"]}
{"id": "C246", "title": "The number of copies and allocations of Dict", "statement": "Every statement on Dicts that ends without exception makes a definite number of copies and allocations: add copies key and value even if the key is there, and allocates and copies the key once more if it is not; extend and construction make three for every entry that comes in; v = w copies every entry of w and allocates only the nodes that v did not have; v[k] = x makes one copy, pop two, min and max one, keys and values two for each element of their result, items three. The others make none.", "quantifier": "all Dicts", "why_tests_cant": "Exact numbers for all Dicts; the tests do not count copies.", "anchors": ["sources/dict.hpp: Dict::add", "sources/dict.hpp: Dict::extend", "sources/dict.hpp: Dict::pop", "sources/dict.hpp: Dict::values"]}
{"id": "C247", "title": "An Int prints like an int of the same value with std::showpos", "statement": "With std::showpos an Int is printed as an int of the same value is: with '+' for a value that is not negative.", "quantifier": "all values of all types built from int, Int, Fraction, Str with the containers", "why_tests_cant": "The tests print to streams in their default state.", "anchors": ["sources/int.hpp: operator<<", "sources/fraction.hpp: operator<<", "sources/utility.hpp: detail::print"]}
{"id": "C248", "title": "Strs when memory runs out", "statement": "When any allocation may fail, every member of Str except format, and replace of the empty text, gives the result it gives otherwise or lets the first std::bad_alloc through; then every Str and every List<Str> is as it was, also after an assignment. Moving, indexing, size, find, count, comparing, iterating and printing allocate nothing and cannot fail that way. Undefined behaviour does not become more.", "quantifier": "all Strs, all positions of the failing allocation", "why_tests_cant": "The tests never run out of memory; every allocation of every call can fail.", "anchors": ["sources/str.hpp: Str", "sources/str.hpp: Str::operator+", "sources/str.hpp: Str::split", "sources/str.hpp: Str::join", "sources/str.hpp: Str::strip"]}
{"id": "C249", "title": "A Str call gives its result or throws", "statement": "When memory runs out, a member of Str that does not throw has given the result it gives otherwise.", "quantifier": "all Strs, all positions of the failing allocation", "why_tests_cant": "The tests never run out of memory.", "anchors": ["sources/str.hpp: Str::format", "sources/str.hpp: Str::replace"]}
{"id": "C250", "title": "Str programs that catch every exception", "statement": "A client program on Strs and Lists of Strs in which every statement has a handler behaves like one on texts whose statements may fail: a statement that fails leaves everything as it was, and format and replace of the empty text may instead make a text cut off where the string stream needed memory. It is undefined only through a statement that is undefined on the texts it meets.", "quantifier": "all programs, all patterns of failing allocations, as long as no text is longer than INT_MAX", "why_tests_cant": "Histories of every length with every pattern of failures.", "anchors": ["sources/str.hpp: Str::operator+", "sources/str.hpp: Str::split", "sources/str.hpp: Str::join", "sources/str.hpp: Str::format", "sources/str.hpp: Str::replace"]}
{"id": "C251", "title": "The number of allocations of Str", "statement": "Every member of Str except replace, split, format and to_integer that ends without exception makes a definite number of allocations, which depends only on the lengths of the texts and the capacities of the strings. While all texts have at most 15 characters those that make a Str allocate nothing.", "quantifier": "all Strs", "why_tests_cant": "Exact numbers for all Strs; the tests do not count allocations.", "anchors": ["sources/str.hpp: Str::operator+", "sources/str.hpp: Str::operator*", "sources/str.hpp: Str::slice", "sources/str.hpp: Str::join", "sources/str.hpp: Str::reverse"]}
{"id": "C252", "title": "Exceptions of the stream instead of state bits", "statement": "Reading an Int, a Fraction or a Complex from a stream with exceptions enabled does what it does without, unless it would leave the stream with a bit for which an exception is wanted; then it throws std::ios_base::failure and the target keeps its value.", "quantifier": "all streams, all texts, all masks of eofbit and failbit", "why_tests_cant": "The tests never call std::istream::exceptions.", "anchors": ["sources/int.hpp: operator>>", "sources/fraction.hpp: operator>>", "sources/complex.hpp: operator>>"]}
{"id": "C253", "title": "Reading a Fraction or Complex with exceptions ends", "statement": "With exceptions for failbit, reading a Fraction or a Complex always ends, and throws std::ios_base::failure if there is nothing to read. Reading a Complex is then never undefined, reading a Fraction only for the most negative int. In general reading is endless exactly if there is nothing to read and the state of the stream does not lead to an exception.", "quantifier": "all streams, all masks of eofbit and failbit", "why_tests_cant": "Endless reading cannot be observed by a test; all texts and stream states.", "anchors": ["sources/fraction.hpp: operator>>", "sources/complex.hpp: operator>>"]}
{"id": "C254", "title": "Every fraction is read from a stream with exceptions", "statement": "With exceptions for failbit, every text of a fraction that fits, followed by white space or the end of the input, is read.", "quantifier": "all texts of fractions, all streams", "why_tests_cant": "The tests never call std::istream::exceptions.", "anchors": ["sources/fraction.hpp: operator>>"]}
{"id": "C255", "title": "Every complex number is read from a stream with exceptions", "statement": "With exceptions for failbit, every text of a complex number, followed by white space or the end of the input, is read.", "quantifier": "all texts of complex numbers, all streams, all results of strtod", "why_tests_cant": "The tests never call std::istream::exceptions.", "anchors": ["sources/complex.hpp: operator>>"]}
{"id": "C256", "title": "Reading loops with exceptions store every number", "statement": "A loop while (is >> x) on a stream with exceptions stores all numbers of the input and then throws std::ios_base::failure.", "quantifier": "all sequences of numbers with any white space between them", "why_tests_cant": "Inputs of every length.", "anchors": ["sources/int.hpp: operator>>", "sources/fraction.hpp: operator>>", "sources/complex.hpp: operator>>"]}
{"id": "C257", "title": "A Str keeps its text if reading it throws", "statement": "If reading a Str from a stream with exceptions throws std::ios_base::failure, the Str keeps its text.", "quantifier": "all streams, all Strs, all masks of eofbit and failbit", "why_tests_cant": "The tests never call std::istream::exceptions.", "anchors": ["sources/str.hpp: operator>>"]}
{"id": "C258", "title": "A stream that runs full gets the beginning of the text", "statement": "Printing a value to a stream whose buffer can take only n more characters writes the first n characters of what would be written otherwise, and everything if that has at most n characters. So do values printed one after the other.", "quantifier": "all values of all printable types, all formatting states, all n, all masks of badbit and failbit", "why_tests_cant": "The tests print to string streams, which never run full.", "anchors": ["sources/utility.hpp: print", "sources/int.hpp: operator<<", "sources/fraction.hpp: operator<<", "sources/str.hpp: operator<<", "sources/tuple.hpp: operator<<", "sources/complex.hpp: operator<<"]}
{"id": "C259", "title": "A value that is cut off is reported", "statement": "Printing a value that does not fit leaves the stream bad. With exceptions for badbit it throws std::ios_base::failure exactly if it does not fit; with exceptions for failbit only, and values that end with a bracket or a quote, exactly if more than the last character is missing.", "quantifier": "all values, all formatting states, all buffer sizes", "why_tests_cant": "The tests print to string streams, which never run full.", "anchors": ["sources/utility.hpp: print", "sources/str.hpp: operator<<", "sources/int.hpp: operator<<", "sources/fraction.hpp: operator<<"]}
{"id": "C260", "title": "Printing to a stream that has failed does nothing", "statement": "Printing to a stream that is not good writes nothing and leaves the formatting state of the stream as it was.", "quantifier": "all values, all streams that are not good", "why_tests_cant": "The tests never print to a stream that has failed.", "anchors": ["sources/int.hpp: operator<<", "sources/utility.hpp: print"]}
{"id": "C261", "title": "A value that is cut off uses up the field width", "statement": "After printing a value that did not fit the field width is 0, as it is after a value that did.", "quantifier": "all values, all formatting states, all buffer sizes", "why_tests_cant": "The tests never print to a stream that runs full.", "anchors": ["sources/int.hpp: operator<<", "sources/utility.hpp: print"]}
{"id": "C262", "title": "Int::random is uniform", "statement": "If the draws of digits are independent and uniform, Int::random(d) returns every integer with d digits with the same probability; without argument, every number of digits up to 4300 is equally likely.", "quantifier": "all numbers of digits, all integers", "why_tests_cant": "Probabilities can only be estimated by tests, and not for every number.", "anchors": ["sources/int.hpp: Int::random"]}
{"id": "C263", "title": "Int::random can return every integer", "statement": "Every integer with d digits can be the result of Int::random(d).", "quantifier": "all d, all integers with d digits", "why_tests_cant": "No test can try all seeds and all numbers.", "anchors": ["sources/int.hpp: Int::random"]}
{"id": "C264", "title": "A List does what a Python list does", "statement": "Whenever the member of List returns, l[i], insert, remove, slice, *, erase and index have the effect and the result of Python's l[i], l.insert, l.pop, l[a:b:c], l * n, del l[a:b] and l.index; l[i] and remove fail exactly where Python's fail.", "quantifier": "all lists, all int arguments", "why_tests_cant": "The tests compare a few calls with results written by hand, not with Python's definition for all arguments.", "anchors": ["readme.md: 3. Usage", "sources/list.hpp: operator[]", "sources/list.hpp: List::insert", "sources/list.hpp: List::remove", "sources/list.hpp: List::slice", "sources/list.hpp: operator*", "sources/list.hpp: List::erase", "sources/list.hpp: List::index"]}
{"id": "C265", "title": "A Str does what a Python str does", "statement": "Whenever the member of Str returns, s[i], slice, *, erase and find have the result of Python's s[i], s[a:b:c], s * n, s[:a] + s[b:] and s.find.", "quantifier": "all strings, all int arguments", "why_tests_cant": "The tests compare a few calls with results written by hand, not with Python's definition for all arguments.", "anchors": ["readme.md: 3. Usage", "sources/str.hpp: operator[]", "sources/str.hpp: Str::slice", "sources/str.hpp: operator*", "sources/str.hpp: Str::erase", "sources/str.hpp: Str::find"]}
{"id": "C266", "title": "List and Str accept the arguments that Python accepts", "statement": "List::slice, List::insert, List::erase, List::index and the repetition of a List, and those of Str, return for all arguments for which Python does.", "quantifier": "all lists and strings, all int arguments", "why_tests_cant": "The tests compare a few calls with results written by hand, not with Python's definition for all arguments.", "anchors": ["readme.md: 3. Usage", "sources/list.hpp: List::slice", "sources/list.hpp: List::insert", "sources/list.hpp: List::erase", "sources/str.hpp: Str::slice", "sources/str.hpp: Str::find"]}
{"id": "C267", "title": "Int divides as Python's int", "statement": "a / b and a % b of Ints are Python's a // b and a % b.", "quantifier": "all integers a and b other than b = 0", "why_tests_cant": "The tests compare a few calls with results written by hand, not with Python's definition for all arguments.", "anchors": ["readme.md: 3. Usage", "sources/int.hpp: operator/=", "sources/int.hpp: operator%="]}
{"id": "C268", "title": "Remainders of Fractions are those of Python's Fraction", "statement": "a % b of Fractions is Python's a % b whenever it returns.", "quantifier": "all fractions", "why_tests_cant": "The tests compare a few calls with results written by hand, not with Python's definition for all arguments.", "anchors": ["readme.md: 3. Usage", "sources/fraction.hpp: operator%"]}
{"id": "C269", "title": "Str::split() is Python's split()", "statement": "Without arguments, Str::split returns the list that Python's str.split() returns.", "quantifier": "all strings of characters below 128", "why_tests_cant": "The tests compare a few calls with results written by hand, not with Python's definition for all arguments.", "anchors": ["readme.md: 3. Usage", "sources/str.hpp: Str::split"]}
{"id": "C270", "title": "Str::strip() is Python's strip()", "statement": "Without argument, Str::strip returns what Python's str.strip() returns.", "quantifier": "all strings of characters below 128", "why_tests_cant": "The tests compare a few calls with results written by hand, not with Python's definition for all arguments.", "anchors": ["readme.md: 3. Usage", "sources/str.hpp: Str::strip"]}
{"id": "C271", "title": "A text that is accepted as an integer means what it means in Python", "statement": "If Str::to_integer(base) or the constructor of Int accepts a text, Python's int(text, base) accepts it with the same value.", "quantifier": "all texts, all bases", "why_tests_cant": "The tests compare a few calls with results written by hand, not with Python's definition for all arguments.", "anchors": ["readme.md: 3. Usage", "sources/str.hpp: Str::to_integer", "sources/int.hpp: Int"]}
{"id": "C272", "title": "Texts of integers that Python accepts are accepted", "statement": "Str::to_integer(base) and the constructor of Int accept the texts that Python's int(text, base) accepts.", "quantifier": "all texts, all bases", "why_tests_cant": "The tests compare a few calls with results written by hand, not with Python's definition for all arguments.", "anchors": ["readme.md: 3. Usage", "sources/str.hpp: Str::to_integer", "sources/int.hpp: Int"]}
{"id": "C273", "title": "Deque::extend_front is Python's extendleft", "statement": "Deque::extend_front leaves the deque that Python's deque.extendleft leaves.", "quantifier": "all deques, all ranges", "why_tests_cant": "The tests compare a few calls with results written by hand, not with Python's definition for all arguments.", "anchors": ["readme.md: 3. Usage", "sources/deque.hpp: Deque::extend_front"]}
{"id": "C274", "title": "A Dict made of pairs is Python's dict made of them", "statement": "A Dict constructed from or extended by pairs has the entries that Python's dict has, in the same order of iteration.", "quantifier": "all key types with a strict total order, all lists of pairs", "why_tests_cant": "The tests compare a few calls with results written by hand, not with Python's definition for all arguments.", "anchors": ["readme.md: 3. Usage", "sources/dict.hpp: Dict", "sources/dict.hpp: Dict::extend"]}
{"id": "C275", "title": "Values print as in Python", "statement": "os << x writes what Python's print(x) writes for the corresponding value, and inside containers the repr of the elements.", "quantifier": "all values of types built from int, Int, Fraction and Str with List, Deque, Set, Dict and Tuple", "why_tests_cant": "The tests compare a few calls with results written by hand, not with Python's definition for all arguments.", "anchors": ["readme.md: 3. Usage", "sources/utility.hpp: print", "sources/str.hpp: operator<<", "sources/tuple.hpp: operator<<"]}
{"id": "C276", "title": "Int::pow with a modulus is Python's pow", "statement": "Int::pow(b, e, m) is the value of Python's pow(b, e, m).", "quantifier": "all integers b, e and m with m != 0", "why_tests_cant": "The tests compare a few calls with results written by hand, not with Python's definition for all arguments.", "anchors": ["readme.md: 3. Usage", "sources/int.hpp: Int::pow"]}
{"id": "C277", "title": "Str::format is Python's str.format", "statement": "s.format(x, y, ...) gives the text that Python's s.format(x, y, ...) gives, and throws where Python raises an exception.", "quantifier": "all templates without names, numbers and specifications in braces, all arguments", "why_tests_cant": "The tests compare a few calls with results written by hand, not with Python's definition for all arguments.", "anchors": ["readme.md: 3. Usage", "sources/str.hpp: Str::format", "sources/str.hpp: Str::format_helper"]}
{"id": "C278", "title": "Str::count, replace, lower and upper are Python's", "statement": "count, replace, lower and upper give what the methods of Python's str of the same names give.", "quantifier": "all strings (of ASCII characters for lower and upper)", "why_tests_cant": "The tests compare a few calls with results written by hand, not with Python's definition for all arguments.", "anchors": ["readme.md: 3. Usage", "sources/str.hpp: Str::count", "sources/str.hpp: Str::replace", "sources/str.hpp: Str::lower", "sources/str.hpp: Str::upper"]}
{"id": "C279", "title": "Breadth-first search with Dict, List and Deque gives the least numbers of steps", "statement": "On Dict<K, List<K>> graph, the program dist.add(start, 0); todo.push_back(start); while (!todo.is_empty()) { K v = todo.pop_front(); int d = dist[v]; for (auto&& w : graph[v]) if (dist.add(w, d + 1)) todo.push_back(w); } ends without exception or undefined behaviour, and then dist has exactly the keys that can be reached from start, each with the least number of steps.", "quantifier": "all key types with a strict total order, all graphs with fewer than INT_MAX keys in which start and all neighbours are keys", "why_tests_cant": "It is the composition of members of three containers over all graphs; tests call the members one at a time on small values.", "anchors": ["sources/dict.hpp: Dict::add", "sources/dict.hpp: Dict::operator[]", "sources/deque.hpp: Deque::push_back", "sources/deque.hpp: Deque::pop_front", "sources/deque.hpp: Deque::is_empty"]}
{"id": "C280", "title": "A text that is accepted as a decimal is read as Python reads it", "statement": "If Str::to_decimal accepts a text, Python's float(text) accepts it: both as the infinity of the same sign, both as NaN, or both as a number with the same sign, digits and exponent.", "quantifier": "all texts shorter than INT_MAX", "why_tests_cant": "The tests compare a few calls with results written by hand, not with Python's definition for all arguments.", "anchors": ["readme.md: 3. Usage", "sources/str.hpp: Str::to_decimal"]}
{"id": "C281", "title": "Texts of decimals that Python accepts are accepted", "statement": "Str::to_decimal accepts the texts that Python's float(text) accepts.", "quantifier": "all texts", "why_tests_cant": "The tests compare a few calls with results written by hand, not with Python's definition for all arguments.", "anchors": ["readme.md: 3. Usage", "sources/str.hpp: Str::to_decimal"]}
{"id": "C282", "title": "Complex numbers are added, multiplied and divided as in Python", "statement": "The sum, difference, product, quotient, negative and conjugate of Complex values are those of Python's complex, and division throws exactly where Python raises ZeroDivisionError.", "quantifier": "all Complex values, including infinities, NaN and signed zeros", "why_tests_cant": "The tests compare a few calls with results written by hand, not with Python's definition for all arguments.", "anchors": ["readme.md: 3. Usage", "sources/complex.hpp: Complex::operator+", "sources/complex.hpp: Complex::operator-", "sources/complex.hpp: Complex::operator*", "sources/complex.hpp: Complex::operator/"]}
{"id": "C283", "title": "Complex numbers are equal where they are equal in Python", "statement": "a == b on Complex values holds exactly when a == b holds for the corresponding Python complex numbers.", "quantifier": "all Complex values, including infinities and NaN", "why_tests_cant": "The tests compare a few calls with results written by hand, not with Python's definition for all arguments.", "anchors": ["readme.md: 3. Usage", "sources/complex.hpp: Complex::operator=="]}
{"id": "C284", "title": "The words of a text are turned around by split, reverse and join", "statement": "For a separator of one character, sep.join(text.split(sep, keep).reverse()) ends without exception or undefined behaviour and is the pieces between the separators in the other order, joined by it; empty pieces are left out unless keep is true. If keep is true, doing it twice gives the text back; otherwise it gives the words of the text with single separators. An empty separator throws.", "quantifier": "all separators of one character, all texts shorter than INT_MAX", "why_tests_cant": "It is the composition of three members over all texts; tests call the members one at a time on short texts.", "anchors": ["sources/str.hpp: Str::split", "sources/str.hpp: Str::join", "sources/list.hpp: List::reverse"]}
{"id": "C285", "title": "The numbers in a text are added up exactly", "statement": "For a separator of one character, Int sum; for (auto&& w : text.split(sep)) sum += w.to_integer(); leaves in sum the sum of the numbers between the separators if all non-empty pieces are decimal integer literals, of any number of digits, and throws the exception of to_integer otherwise. So for integers written with a separator between them that is neither a digit nor a minus sign, it gives their sum.", "quantifier": "all separators of one character, all texts shorter than INT_MAX", "why_tests_cant": "It is the composition of three members over all texts and numbers of any size; tests call the members one at a time on short texts.", "anchors": ["sources/str.hpp: Str::split", "sources/str.hpp: Str::to_integer", "sources/int.hpp: Int::operator+="]}
{"id": "C286", "title": "The numbers of Fibonacci computed with Int are exact", "statement": "Int a = 0, b = 1; for (; n > 0; --n) { Int t = a + b; a = b; b = t; } leaves in a exactly the n-th number of Fibonacci, without undefined behaviour.", "quantifier": "all n", "why_tests_cant": "The numbers grow without bound, so every carry pattern of the sequence occurs; tests add a few pairs.", "anchors": ["sources/int.hpp: Int::operator+", "sources/int.hpp: Int::operator+="]}
{"id": "C287", "title": "A sorted List is searched by halving", "statement": "int lo = 0, hi = list.size(); while (lo < hi) { int mid = lo + (hi - lo) / 2; if (list[mid] < x) lo = mid + 1; else hi = mid; } ends after at most 31 rounds, without exception or undefined behaviour, with lo the number of elements that are less than x; x is in the sorted List exactly when list[lo] exists and is x. With int mid = (lo + hi) / 2 the same holds for Lists of at most 2^30 elements, and not for longer ones, where the sum can overflow.", "quantifier": "all element types with a strict total order, all sorted Lists of at most INT_MAX elements, all x", "why_tests_cant": "Lists of more than 2^30 elements and all positions of x are out of reach of tests.", "anchors": ["sources/list.hpp: List::operator[]", "sources/list.hpp: List::size"]}
