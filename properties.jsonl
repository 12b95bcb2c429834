{"id": "C01", "title": "Pair index is a bijection", "statement": "For every maxval m and indices a,b < m whose index b*m+a fits in 64 bits, pairs::GetPair(pairs::GetPairIndex(a,b,m),m) == (a,b); conversely every i yields a pair that maps back to i; for m < 2^32 the indices are exactly 0..GetNumPairs(m)-1. The two GetPairIndex overloads agree. The index is injective on pairs for m <= 2^32 and, by wrap-around, fails to be injective for every m > 2^32; GetPair(i,0) is undefined.", "quantifier": "all 64-bit a, b, i, maxval", "why_tests_cant": "2^128 argument combinations; the test samples m=489 and only a<=b", "anchors": ["include/bwsl/Pairs.hpp:GetPairIndex", "include/bwsl/Pairs.hpp:GetPair", "include/bwsl/Pairs.hpp:GetNumPairs"]}
{"id": "C02", "title": "Index/coordinate conversion is a row-major bijection", "statement": "For any list of positive sizes (each at most 2^63) whose product is below 2^64, array_to_index and index_to_array are mutually inverse between in-range coordinate vectors and 0..prod-1, and the index is the row-major (last coordinate fastest) one.", "quantifier": "all dimension counts, all sizes, all indices/coordinates", "why_tests_cant": "dimension and sizes are unbounded", "anchors": ["include/bwsl/MathUtils.hpp:array_to_index", "include/bwsl/MathUtils.hpp:index_to_array", "include/bwsl/MathUtils.hpp:accumulate_product"]}
{"id": "C03", "title": "Exactly when the index/coordinate conversions are undefined", "statement": "index_to_array divides by zero (undefined) exactly when an extent is 0 or the true product of the extents is 2^64 or more, whatever the index; array_to_index is undefined exactly when an extent is 0 or the coordinate vector is shorter than the size vector, and otherwise returns an index even when the product wraps.", "quantifier": "all size lists of 64-bit values", "why_tests_cant": "the wrap-to-zero cases need astronomically large grids", "anchors": ["include/bwsl/MathUtils.hpp:array_to_index", "include/bwsl/MathUtils.hpp:index_to_array"]}
{"id": "C04", "title": "get_gcd terminates and is a greatest common divisor", "statement": "For all 64-bit (or 32-bit) signed a,b, get_gcd(a,b) terminates; the only undefined inputs are (MIN,-1) and (-1,MIN), which evaluate MIN % -1; for all others the absolute value of the result is the greatest common divisor, and the result is non-negative for non-negative arguments but may be negative otherwise (get_gcd(-6,4) == -2).", "quantifier": "all pairs of signed machine integers", "why_tests_cant": "termination and maximality are universal statements", "anchors": ["include/bwsl/MathUtils.hpp:get_gcd"]}
{"id": "C05", "title": "cbinomial is the exact binomial coefficient", "statement": "For all 0 <= k <= n < 2^63-1: if C(n,k)*min(k,n-k) < 2^63, cbinomial(n,k) returns C(n,k) rounded to double (exactly C(n,k) below 2^53), and otherwise a signed product overflows (undefined); it is symmetric in k <-> n-k, 0 for k > n; every division in the loop is exact; for negative k <= n it returns 1, not 0.", "quantifier": "all n,k in range", "why_tests_cant": "every division in the multiplicative loop must be exact; infinitely many n", "anchors": ["include/bwsl/MathUtils.hpp:cbinomial"]}
{"id": "C06", "title": "choose_between picks a real entry with the right interval", "statement": "For every non-empty list of non-negative finite double weights with finite total and every random draw r with 0 <= r < total, choose_between (and choose_between_psums on the partial sums) returns an index i < size with psum[i-1] <= r < psum[i], hence never an entry of zero weight; if the draw equals the total the returned index is size, i.e. out of range. The draw of libstdc++'s uniform_real_distribution is below every total greater than 2^-1022, and can equal a total of 2^-1022.", "quantifier": "all weight lists, all draws", "why_tests_cant": "random draws sample the space; floating partial sums must be monotone for every list", "anchors": ["include/bwsl/MathUtils.hpp:choose_between", "include/bwsl/MathUtils.hpp:choose_between_psums"]}
{"id": "C07", "title": "choose_with_probability is a threshold test", "statement": "For every draw r in [0,1): the result is true for prob >= 1, false for prob <= 0 and for NaN, and is monotone in prob.", "quantifier": "all draws and all doubles prob", "why_tests_cant": "continuum of draws", "anchors": ["include/bwsl/MathUtils.hpp:choose_with_probability"]}
{"id": "C08", "title": "absdiff, signeddiff and sgn are exact", "statement": "For all 64-bit unsigned a,b: absdiff(a,b) == |a-b| with no wrap; signeddiff(a,b) == a-b whenever |a-b| < 2^63 and is antisymmetric; sgn(x) is the sign of x for all integers and doubles (0 for NaN and both zeros).", "quantifier": "all unsigned pairs, all doubles", "why_tests_cant": "unsigned wrap-around must not leak for any pair", "anchors": ["include/bwsl/MathUtils.hpp:absdiff", "include/bwsl/MathUtils.hpp:signeddiff", "include/bwsl/MathUtils.hpp:sgn"]}
{"id": "C09", "title": "bwsl::upper_bound finds the first greater element", "statement": "bwsl::upper_bound(first,last,value) on a sorted range returns the first element greater than value. REFUTED as written: for every range of 1..10000 elements the function calls itself with the same arguments and never returns, and on a longer range the interpolation may read one past the end. With the final call read as std::upper_bound, and any probe inside the window, the result is the first greater element for every strictly increasing range; with the interpolated probe it is that or a read past the end; with repeated elements it can be wrong (10001 zeros, value 0: position 1).", "quantifier": "all sorted ranges, all values, all interpolation results", "why_tests_cant": "non-termination cannot be observed by a test; the interpolation path is data dependent", "anchors": ["include/bwsl/MathUtils.hpp:upper_bound"]}
{"id": "C10", "title": "lerp and lerpi hit their endpoints", "statement": "For all finite doubles a,b: lerp(a,b,0)==a, lerp(a,b,1)==b, lerpi(0,j,a,b)==a and lerpi(j,j,a,b)==b for every non-zero j; in exact arithmetic lerp(a,b,t) lies between a and b for t in [0,1]. In double arithmetic lerp(a,a,t) may differ from a.", "quantifier": "all finite doubles, all j", "why_tests_cant": "2^128 pairs of doubles", "anchors": ["include/bwsl/MathUtils.hpp:lerp", "include/bwsl/MathUtils.hpp:lerpi"]}
{"id": "C11", "title": "heaviside and heaviside2", "statement": "For every double x: heaviside(x) is 1 for x >= 0 and 0 otherwise (including NaN); heaviside2(x) is 1/2 at both zeros, 1 above and 0 below or at NaN; heaviside2(x)+heaviside2(-x)==1 for every non-NaN x.", "quantifier": "all doubles", "why_tests_cant": "2^64 arguments incl. signed zero, infinities, NaN", "anchors": ["include/bwsl/MathUtils.hpp:heaviside", "include/bwsl/MathUtils.hpp:heaviside2"]}
{"id": "C12", "title": "Container reductions and vector arithmetic", "statement": "accumulate_sum/accumulate_product of size_t containers are the sum/product modulo 2^64, of long containers the exact sum/product, undefined exactly when a partial result leaves the type; max/min return an element that bounds all others (undefined on an empty container); sum_into and subtract_into add and subtract componentwise, are undefined exactly when the right container is shorter or a component overflows, and subtract_into undoes sum_into; invert and get_inverted negate componentwise and are involutive; sum_squared is the sum of the squares, undefined exactly when it reaches 2^63.", "quantifier": "all containers", "why_tests_cant": "unbounded lengths and values", "anchors": ["include/bwsl/MathUtils.hpp:accumulate_sum", "include/bwsl/MathUtils.hpp:accumulate_product", "include/bwsl/MathUtils.hpp:max", "include/bwsl/MathUtils.hpp:min", "include/bwsl/MathUtils.hpp:sum_into", "include/bwsl/MathUtils.hpp:subtract_into", "include/bwsl/MathUtils.hpp:invert", "include/bwsl/MathUtils.hpp:get_inverted", "include/bwsl/MathUtils.hpp:sum_squared"]}
{"id": "C13", "title": "RationalNum construction keeps the value and reduces", "statement": "For all num and all den != 0, whenever RationalNum(num,den) has defined behaviour it represents exactly num/den with coprime numerator and denominator; it is defined for all values other than the minimum of the type, and a minimum numerator can be undefined (INT_MIN, -3); RationalNum(x,0) with x != 0 becomes 1//0 silently, and RationalNum(0,0) divides by zero. Simplify is idempotent.", "quantifier": "all numerators and denominators", "why_tests_cant": "2^128 pairs", "anchors": ["include/bwsl/RationalNum.hpp:RationalNum::RationalNum", "include/bwsl/RationalNum.hpp:RationalNum::Simplify"]}
{"id": "C14", "title": "RationalNum arithmetic is exact", "statement": "+,-,*,/ between rationals, and between a rational and an integer on either side, return the reduced exact rational result whenever they return at all and (for /) the divisor is non-zero; they do return whenever each written intermediate product and sum stays within plus or minus the maximum of the type.", "quantifier": "all pairs of rationals with non-zero denominators", "why_tests_cant": "field laws over all operands", "anchors": ["include/bwsl/RationalNum.hpp:operator+", "include/bwsl/RationalNum.hpp:operator-", "include/bwsl/RationalNum.hpp:operator*", "include/bwsl/RationalNum.hpp:operator/"]}
{"id": "C15", "title": "RationalNum equality is equality of values", "statement": "For rationals with non-zero denominators of any sign, a == b holds exactly when the represented numbers are equal (absent overflow of the cross products), hence it is an equivalence; != is its negation.", "quantifier": "all pairs", "why_tests_cant": "all representations of all values", "anchors": ["include/bwsl/RationalNum.hpp:operator<", "include/bwsl/RelationalUtils.hpp:TEMPLATEOVERLOADRELATIONAL"]}
{"id": "C16", "title": "RationalNum ordering is the ordering of values", "statement": "a < b (and >, <=, >=) agrees with the order of the represented numbers when the denominators have the same sign, in particular for rationals built from non-negative numerators and positive denominators. REFUTED in general: with denominators of opposite signs the order is exactly reversed; reduction may leave a negative denominator even for a positive input denominator (RationalNum(-6,4) is 3//-2), and then a < b is inverted, e.g. -3/2 < 0 is false.", "quantifier": "all pairs of constructed rationals", "why_tests_cant": "the sign of the remainder sequence depends on both operands", "anchors": ["include/bwsl/RationalNum.hpp:operator<", "include/bwsl/RationalNum.hpp:RationalNum::Simplify", "include/bwsl/MathUtils.hpp:get_gcd"]}
{"id": "C17", "title": "Comparison of a rational with an integer", "statement": "Comparisons between a RationalNum and an integer agree with the values when the rational is integral. REFUTED in general: the rational is truncated first, so 3/2 == 1 is true, 1 < 3/2 is false and -1/2 < 0 is false; exactly the truncated value is compared.", "quantifier": "all rationals and integers", "why_tests_cant": "infinitely many operand pairs", "anchors": ["include/bwsl/RationalNum.hpp:operator<"]}
{"id": "C18", "title": "Rational text round trip", "statement": "Writing any rational (any 64-bit numerator and denominator) with operator<< / ToString and reading it back with operator>> / FromString gives the same numerator and denominator and leaves the stream good for more input; the text is num//den in decimal.", "quantifier": "all numerators, denominators and following input", "why_tests_cant": "2^128 values", "anchors": ["include/bwsl/RationalNum.hpp:operator<<", "include/bwsl/RationalNum.hpp:operator>>", "include/bwsl/RationalNum.hpp:FromString", "include/bwsl/RationalNum.hpp:ToString"]}
{"id": "C19", "title": "Rational parsing accepts exactly its grammar", "statement": "FromString throws BadParsing exactly when the text does not start with integer, '/', '/', integer (each optionally preceded by blanks) or one of the integers is out of range; otherwise it stores exactly those integers, un-reduced and with a zero denominator accepted; trailing text is ignored. A rejected text may still overwrite the object (5//x leaves 5//0).", "quantifier": "all strings", "why_tests_cant": "infinitely many strings", "anchors": ["include/bwsl/RationalNum.hpp:operator>>", "include/bwsl/RationalNum.hpp:FromString"]}
{"id": "C20", "title": "Derived relational operators are consistent", "statement": "For any type given operator<, the macro-generated ==, !=, <=, >, >= satisfy: != negates ==, > swaps <, <= and >= negate the swapped/straight <; if < is a strict weak order then == is an equivalence, exactly one of <,==,> holds and <= is its reflexive closure.", "quantifier": "all types, all operator<", "why_tests_cant": "quantifies over user types", "anchors": ["include/bwsl/RelationalUtils.hpp:TEMPLATEOVERLOADRELATIONAL", "include/bwsl/RelationalUtils.hpp:OVERLOADRELATIONAL", "include/bwsl/RelationalUtils.hpp:OVERLOADRELATIONALNOEQ"]}
{"id": "C21", "title": "Grid indices and coordinates are inverse", "statement": "On a grid with positive sizes (each at most 2^62, product below 2^64), GetIndex(GetCoordinates(i)) == i for every valid i, GetCoordinates(i) is on the grid, and GetCoordinates(GetIndex(c)) == c for every c on the grid; GetNumSites is the product of the sizes, GetDim the number of sizes and of coordinates.", "quantifier": "all grids, all sites", "why_tests_cant": "unbounded dimensions and sizes", "anchors": ["include/bwsl/HyperCubicGrid.hpp:HyperCubicGrid::GetCoordinates", "include/bwsl/HyperCubicGrid.hpp:HyperCubicGrid::GetIndex"]}
{"id": "C22", "title": "Enforcing boundaries is reduction modulo the sizes", "statement": "With closed boundaries and positive sizes below 2^63 EnforceBoundaries terminates for every coordinate vector and yields the unique on-grid representative modulo the sizes; with open boundaries the grid version leaves the coordinates unchanged; the Lattice version reduces for both. With a zero size the closed version and the Lattice version never return, whatever the coordinate; with a size of 2^63 or more the closed version overflows.", "quantifier": "all grids, all coordinate vectors", "why_tests_cant": "loop termination for every start value", "anchors": ["include/bwsl/HyperCubicGrid.hpp:HyperCubicGrid::EnforceBoundaries", "include/bwsl/Lattice.hpp:Lattice::EnforceBoundaries"]}
{"id": "C23", "title": "IsOnGrid characterises the sites", "statement": "IsOnGrid(c) is true exactly when every coordinate lies in [0,size_i), equivalently when c is GetCoordinates of some valid index.", "quantifier": "all coordinate vectors of matching dimension", "why_tests_cant": "unbounded", "anchors": ["include/bwsl/HyperCubicGrid.hpp:HyperCubicGrid::IsOnGrid"]}
{"id": "C24", "title": "Mapping and unmapping sites are inverse (closed boundaries)", "statement": "For every closed grid and valid a,b: GetMappedSite(a,b) is valid, GetUnMappedSite(GetMappedSite(a,b),a) == b, GetMappedSite(a,GetUnMappedSite(i,a)) == i, GetMappedSite(a,a)==0, GetMappedSite(0,b)==b, and GetMappedSite(a,b) depends only on the coordinate difference modulo the sizes (translation invariance).", "quantifier": "all closed grids, all site pairs", "why_tests_cant": "all sizes and dimensions", "anchors": ["include/bwsl/HyperCubicGrid.hpp:HyperCubicGrid::GetMappedSite", "include/bwsl/HyperCubicGrid.hpp:HyperCubicGrid::GetUnMappedSite"]}
{"id": "C25", "title": "Mapping sites with open boundaries", "statement": "GetMappedSite returns a valid site index for valid a,b. REFUTED for open boundaries: the result is exactly (b-a) mod 2^64 (and GetUnMappedSite(i,a) is (a+i) mod 2^64), so for b<a it is not a site (e.g. 2^64-1), and for a<=b it is the site with coordinates coord(b)-coord(a) exactly when b dominates a componentwise, otherwise an unrelated site.", "quantifier": "all open grids, all site pairs", "why_tests_cant": "tests only exercise closed grids", "anchors": ["include/bwsl/HyperCubicGrid.hpp:HyperCubicGrid::GetMappedSite"]}
{"id": "C26", "title": "GetJump is the minimum-image displacement", "statement": "For every grid with sizes below 2^32 and valid a,b: with closed boundaries each component of GetJump(a,b) is congruent to coord(b)-coord(a) modulo the size and lies in (-size/2, size/2]; with open boundaries it is exactly coord(b)-coord(a). No congruent displacement is shorter; reversing a hop negates each component except those of exactly half the extent, which stay positive. The int truncation of size/2 breaks this for larger extents: 2^32 is undefined behaviour, 2^33 gives the wrong image.", "quantifier": "all grids, all site pairs", "why_tests_cant": "all sizes; parity cases", "anchors": ["include/bwsl/HyperCubicGrid.hpp:HyperCubicGrid::GetJump"]}
{"id": "C27", "title": "Winding numbers of closed walks are exact integers", "statement": "For every closed walk through sites of a grid, the componentwise sum of GetJump along the walk is an exact multiple of the sizes, and GetWinding of it returns that multiple k (0 for open boundaries, any walk length), with |k| at most half the number of hops and no overflow up to 2^32 hops; for any walk the sum is congruent to the end-to-start displacement. A walk that retraces its steps need not have winding 0: on an extent of 2 the walk 0,1,0 has winding 1.", "quantifier": "all walks of any length on all grids", "why_tests_cant": "quantifies over histories", "anchors": ["include/bwsl/HyperCubicGrid.hpp:HyperCubicGrid::GetJump", "include/bwsl/Lattice.hpp:Lattice::GetWinding"]}
{"id": "C28", "title": "Grid pair indices", "statement": "For a grid with fewer than 2^32 sites, GetIndividualIndices inverts GetPairIndex on all pairs of valid sites and all indices below GetNumSites()^2.", "quantifier": "all grids, all pairs", "why_tests_cant": "unbounded", "anchors": ["include/bwsl/HyperCubicGrid.hpp:HyperCubicGrid::GetPairIndex", "include/bwsl/HyperCubicGrid.hpp:HyperCubicGrid::GetIndividualIndices"]}
{"id": "C29", "title": "Neighbour directions come in opposite pairs", "statement": "For every Bravais lattice, point p and direction index k: GetNeighbor(GetNeighbor(p,2k),2k+1) == p == GetNeighbor(GetNeighbor(p,2k+1),2k), the displacement does not depend on p, and equals plus/minus the k-th neighbour vector; indices beyond 2*(number of stored vectors) read out of bounds.", "quantifier": "all lattices, points, directions", "why_tests_cant": "unbounded", "anchors": ["include/bwsl/Bravais.hpp:Bravais::GetNeighbor"]}
{"id": "C30", "title": "Bravais distance is symmetric and translation invariant, bit for bit", "statement": "For every lattice matrix (any doubles) and points a,b: GetDistance(a,b) and GetDistance(b,a) are the same double, GetDistance(a+t,b+t) == GetDistance(a,b), GetVector(b,a) is the exact componentwise negation of GetVector(a,b) (up to the sign of zero), GetDistanceVector returns GetDistance and GetVector together, and GetDistance(a,a) == 0 for finite matrices.", "quantifier": "all double matrices, all coordinates without integer overflow", "why_tests_cant": "rounding must be symmetric for every matrix", "anchors": ["include/bwsl/Bravais.hpp:Bravais::GetDistance", "include/bwsl/Bravais.hpp:Bravais::GetVector", "include/bwsl/Bravais.hpp:Bravais::GetDistanceVector", "include/bwsl/Bravais.hpp:Bravais::GetRealSpace"]}
{"id": "C31", "title": "Hyper-cubic lattices embed integers exactly", "statement": "For the chain, square and cubic lattices and all coordinates below 2^53 in magnitude, GetRealSpace returns exactly the integer coordinates as doubles, and GetDistance is the correctly rounded square root of the sum of squared differences while that sum is below 2^53.", "quantifier": "all coordinates", "why_tests_cant": "2^159 inputs", "anchors": ["include/bwsl/Bravais.hpp:ChainLattice", "include/bwsl/Bravais.hpp:SquareLattice", "include/bwsl/Bravais.hpp:CubicLattice", "include/bwsl/Bravais.hpp:Bravais::GetRealSpace"]}
{"id": "C32", "title": "Real and reciprocal space are dual", "statement": "In exact arithmetic, whenever the second matrix is the inverse of the first, GetReciprocalSpace(k) . GetRealSpace(c) == 2*pi*sum k_j c_j for all integer k,c in any dimension; the four built-in lattices satisfy the inverse relation.", "quantifier": "all dimensions, matrices, integer vectors", "why_tests_cant": "algebraic identity in any dimension", "anchors": ["include/bwsl/Bravais.hpp:Bravais::GetReciprocalSpace", "include/bwsl/Bravais.hpp:Bravais::GetRealSpace"]}
{"id": "C33", "title": "GetInverseVector inverts GetRealSpace", "statement": "GetInverseVector(GetRealSpace(c)) == c. Holds for the chain, square and cubic lattices. REFUTED for the triangular lattice: the code multiplies by realspace[i] where realspace[j] is needed, so row i is only scaled by the row sum of the inverse.", "quantifier": "all coordinates of all lattices", "why_tests_cant": "no test covers it; universal over coordinates", "anchors": ["include/bwsl/Bravais.hpp:Bravais::GetInverseVector"]}
{"id": "C34", "title": "Neighbour lists are valid and complete", "statement": "On a closed lattice each site has exactly GetGamma() neighbours, all valid site indices, namely the sites at coord +/- each neighbour vector modulo the sizes; on an open lattice exactly those displaced points that stay on the grid are listed; GetCoordination(i) is the list length and GetCoordination() that of site 0 (GetGamma() on a closed lattice); construction terminates.", "quantifier": "all Bravais lattices, sizes, sites", "why_tests_cant": "unbounded", "anchors": ["include/bwsl/Lattice.hpp:Lattice::ComputeNeighbors", "include/bwsl/Lattice.hpp:Lattice::GetNeighbors", "include/bwsl/Lattice.hpp:Lattice::GetCoordination"]}
{"id": "C35", "title": "AreNeighbors is symmetric", "statement": "For every lattice (open or closed, any Bravais lattice with its directions in opposite pairs) and valid a,b: AreNeighbors(a,b) == AreNeighbors(b,a).", "quantifier": "all lattices and site pairs", "why_tests_cant": "unbounded", "anchors": ["include/bwsl/Lattice.hpp:Lattice::AreNeighbors"]}
{"id": "C36", "title": "Closed hyper-cubic distances are minimum-image distances", "statement": "On closed chain/square/cubic lattices GetDistance(a,b) is, bit for bit, the correctly rounded square root of sum_i min(d_i, L_i-d_i)^2 with d_i the coordinate difference modulo L_i; hence symmetric, translation invariant, zero exactly for a==b, and the minimum over all periodic images.", "quantifier": "all sizes (sum of squares below 2^53), all site pairs", "why_tests_cant": "all sizes; one size (16x16) is tested", "anchors": ["include/bwsl/Lattice.hpp:Lattice::ComputeVectors", "include/bwsl/Lattice.hpp:Lattice::ComputeDistances", "include/bwsl/Lattice.hpp:Lattice::GetDistance"]}
{"id": "C37", "title": "Distances are minimal over the first shell of images for every lattice", "statement": "For every closed lattice the stored vector from site 0 to site s attains the least computed distance among the 3^d images of s, and GetDistance is its length. REFUTED beyond that shell: on elongated triangular lattices GetDistance is neither the minimum over all images nor symmetric.", "quantifier": "all lattices, sites, images", "why_tests_cant": "search must be exhaustive in any dimension", "anchors": ["include/bwsl/Lattice.hpp:Lattice::ComputeVectors", "include/bwsl/Lattice.hpp:Lattice::GetDistance"]}
{"id": "C38", "title": "Distances with open boundaries", "statement": "On an open lattice GetDistance(a,b) is the distance between the two sites. REFUTED: for a > b on an open chain it reads out of bounds, and for some pairs of an open square lattice it returns the distance of unrelated sites; it is right when b dominates a componentwise.", "quantifier": "all open lattices and site pairs", "why_tests_cant": "only closed lattices are tested", "anchors": ["include/bwsl/Lattice.hpp:Lattice::GetDistance", "include/bwsl/Lattice.hpp:Lattice::GetVector"]}
{"id": "C39", "title": "Momenta are the allowed ones", "statement": "On closed hyper-cubic lattices GetMomentum(i) is 2*pi*(coord_k - L_k/2)/L_k per direction, so momentum times any lattice period is a multiple of 2*pi, and distinct sites have distinct momenta (exact arithmetic). REFUTED for the triangular lattice with unequal sizes. On open lattices GetMomentum and SaveMomenta read out of bounds.", "quantifier": "all sizes and sites", "why_tests_cant": "unbounded", "anchors": ["include/bwsl/Lattice.hpp:Lattice::ComputeMomenta", "include/bwsl/Lattice.hpp:Lattice::GetMomentum", "include/bwsl/Lattice.hpp:Lattice::SaveMomenta"]}
{"id": "C40", "title": "Structure factor", "statement": "In exact arithmetic AccumulateSk adds to each sk[i] exactly mult*|sum_j n_j exp(i k_i.x_j)|^2/N^2: non-negative for mult >= 0, at most mult*(sum|n_j|)^2/N^2, equal to mult*(sum n_j)^2/N^2 at zero momentum, zero for an empty configuration; ComputeSk starts from zeros; open lattices are left untouched.", "quantifier": "all closed lattices, occupations, multipliers", "why_tests_cant": "unbounded", "anchors": ["include/bwsl/Lattice.hpp:Lattice::AccumulateSk", "include/bwsl/Lattice.hpp:Lattice::ComputeSk"]}
{"id": "C41", "title": "Lattice files have consistent tables", "statement": "SavePositions, SaveDistances, SaveMomenta (closed) and SavePairs (closed) write a header and one row per site (per ordered pair for SavePairs) with exactly as many fields as the header, rows numbered consecutively from 0 and the values the getters return. REFUTED for open lattices: SavePairs reads out of bounds as soon as there are two sites.", "quantifier": "all lattices", "why_tests_cant": "unbounded", "anchors": ["include/bwsl/Lattice.hpp:Lattice::SavePositions", "include/bwsl/Lattice.hpp:Lattice::SaveDistances", "include/bwsl/Lattice.hpp:Lattice::SaveMomenta", "include/bwsl/Lattice.hpp:Lattice::SavePairs"]}
{"id": "C42", "title": "Kahan sum error bound", "statement": "For every sequence of n <= 2^49 doubles for which KahanAccumulator::Sum() is finite, the result differs from the exact real sum by at most u*|Sum| + (2u + 16*n*u^2)*sum|x_i| (u = 2^-53), independently of order; and Sum() is finite whenever the values are and sum|x_i| <= 2^1019.", "quantifier": "all finite sequences of doubles", "why_tests_cant": "worst-case rounding over all inputs", "anchors": ["include/bwsl/accumulators/KahanAccumulator.hpp:KahanAccumulator::Add", "include/bwsl/accumulators/KahanAccumulator.hpp:KahanAccumulator::Sum"]}
{"id": "C43", "title": "Neumaier sum error bound", "statement": "For every sequence of doubles for which NeumaierAccumulator::Sum() is finite, |Sum - exact| <= u*|exact| + (1+u)*((1+u)^n-1)^2*sum|x_i| (at most u*|exact| + 5*(n*u)^2*sum|x_i| for n <= 2^52, u = 2^-53); and Sum() is finite whenever the values are, n <= 2^52 and sum|x_i| <= 2^1019.", "quantifier": "all finite sequences of doubles", "why_tests_cant": "worst-case rounding over all inputs", "anchors": ["include/bwsl/accumulators/NeumaierAccumulator.hpp:NeumaierAccumulator::Add", "include/bwsl/accumulators/NeumaierAccumulator.hpp:NeumaierAccumulator::Sum"]}
{"id": "C44", "title": "Integer data is summed exactly", "statement": "When all added values are integers whose absolute values sum to at most 2^53, the Kahan and Neumaier Sum() are exactly the integer sum, and Mean() is the correctly rounded quotient (at least one and at most 2^53 values).", "quantifier": "all integer sequences", "why_tests_cant": "unbounded sequences", "anchors": ["include/bwsl/accumulators/KahanAccumulator.hpp:KahanAccumulator::Sum", "include/bwsl/accumulators/NeumaierAccumulator.hpp:NeumaierAccumulator::Sum", "include/bwsl/accumulators/KahanAccumulator.hpp:KahanAccumulator::Mean"]}
{"id": "C45", "title": "Counting, resetting and batching", "statement": "For every history of Add and Reset calls on each accumulator that ends normally (always, for the double accumulators without checks), Count() is the number of Adds since the last Reset (modulo 2^64; for the weighted accumulator only positive weights count), the state equals that of a fresh accumulator fed the values since the last Reset, and apply_accumulator over a range equals adding one by one and splits over concatenation.", "quantifier": "all call histories", "why_tests_cant": "histories are unbounded", "anchors": ["include/bwsl/Accumulators.hpp:apply_accumulator", "include/bwsl/accumulators/KahanAccumulator.hpp:KahanAccumulator::Reset", "include/bwsl/accumulators/NeumaierAccumulator.hpp:NeumaierAccumulator::Reset", "include/bwsl/accumulators/KnuthWelfordAccumulator.hpp:KnuthWelfordAccumulator::Reset", "include/bwsl/accumulators/WestAccumulator.hpp:WestAccumulator::Reset"]}
{"id": "C46", "title": "Checked builds refuse the 2^64-th measurement", "statement": "With BWSL_ACCUMULATORS_CHECKS, adding to an accumulator that already holds 2^64-1 values throws AccumulatorOverflow and leaves it unchanged, and no other Add throws; without the macro the count wraps to 0.", "quantifier": "all accumulator states", "why_tests_cant": "2^64 additions cannot be executed", "anchors": ["include/bwsl/accumulators/AccumulatorsExceptions.hpp:AccumulatorOverflow", "include/bwsl/accumulators/KahanAccumulator.hpp:KahanAccumulator::Add"]}
{"id": "C47", "title": "Knuth-Welford computes mean and variance", "statement": "In exact arithmetic, after adding x_1..x_n (n < 2^64): Mean is the arithmetic mean, Sum is the sum, ScaledVariance is the sum of squared deviations, Variance(corrected) divides it by n or n-1, Error is sqrt(Variance/n); with fewer than two values the variances are NaN (in doubles).", "quantifier": "all sequences", "why_tests_cant": "unbounded sequences", "anchors": ["include/bwsl/accumulators/KnuthWelfordAccumulator.hpp:KnuthWelfordAccumulator::Add", "include/bwsl/accumulators/KnuthWelfordAccumulator.hpp:KnuthWelfordAccumulator::Variance"]}
{"id": "C48", "title": "Knuth-Welford in doubles: variance never negative, mean within range", "statement": "For every sequence of doubles bounded by 2^1022 in magnitude (fewer than 2^64 of them) the computed Mean lies between the smallest and largest added value, and ScaledVariance/Variance/StandardDeviation (for at least two values) is never negative and never NaN. Without the bound this is REFUTED (2^1023, -2^1023, 0 give a NaN mean).", "quantifier": "all sequences of doubles", "why_tests_cant": "rounding could produce a negative variance on some input", "anchors": ["include/bwsl/accumulators/KnuthWelfordAccumulator.hpp:KnuthWelfordAccumulator::Add"]}
{"id": "C49", "title": "West accumulator computes weighted mean and variance", "statement": "In exact arithmetic, after adding (m_i,w_i): Mean is the weighted mean over entries with w_i > 0, Sum is sum w_i m_i, PopulationVariance the weighted population variance and the two sample variances the frequency / reliability ones; entries with weight <= 0 are ignored.", "quantifier": "all sequences of weighted values", "why_tests_cant": "unbounded sequences", "anchors": ["include/bwsl/accumulators/WestAccumulator.hpp:WestAccumulator::Add", "include/bwsl/accumulators/WestAccumulator.hpp:WestAccumulator::PopulationVariance"]}
{"id": "C50", "title": "West accumulator in doubles", "statement": "In double arithmetic, adding a value with weight <= 0 or NaN changes nothing, the first value becomes the mean exactly with zero spread (provided w*m does not overflow; REFUTED otherwise: the spread is then NaN), and the sum of weights never decreases. 'The variance is never negative' is REFUTED: when a new weight dwarfs the previous ones the rounded mean can overshoot and PopulationVariance becomes negative.", "quantifier": "all sequences of doubles", "why_tests_cant": "rounding corner cases", "anchors": ["include/bwsl/accumulators/WestAccumulator.hpp:WestAccumulator::Add"]}
{"id": "C51", "title": "NaiveInteger sums exactly", "statement": "Sum() is the exact sum as long as the sum of squares is below 2^63, and undefined behaviour occurs otherwise; Mean() is the rounded quotient while the sums are within 2^53. ScaledVariance is the rounded (sum x^2 - (sum x)^2)/n and StandardDeviation the rounded square root of Variance, NaN when sum x^2 < (sum x)^2; with fewer than two values all three are NaN. 'Variance is the variance' is REFUTED: the formula omits a factor count (two equal values 1,1 give a negative variance). With BWSL_ACCUMULATORS_CHECKS every Add throws (or overflows) so no value can ever be added.", "quantifier": "all integer sequences", "why_tests_cant": "unbounded; checked build never tested", "anchors": ["include/bwsl/accumulators/NaiveIntegerAccumulator.hpp:NaiveInteger::Add", "include/bwsl/accumulators/NaiveIntegerAccumulator.hpp:NaiveInteger::Variance"]}
{"id": "C52", "title": "Archived accumulators resume identically", "statement": "Saving any accumulator or histogram to an archive and loading it into any other object restores the complete state, so that every later sequence of calls gives identical results; loading consumes exactly what saving wrote.", "quantifier": "all states, all later histories, all archive contents following", "why_tests_cant": "all states", "anchors": ["include/bwsl/accumulators/KahanAccumulator.hpp:KahanAccumulator::serialize", "include/bwsl/HistAccumulator.hpp:HistAccumulator::serialize", "include/bwsl/accumulators/WestAccumulator.hpp:WestAccumulator::serialize", "include/bwsl/accumulators/KnuthWelfordAccumulator.hpp:KnuthWelfordAccumulator::serialize"]}
{"id": "C53", "title": "Histogram refines a list of bins", "statement": "For every history of Add, ForceAdd, Reset and Resize with in-range Add indices: the number of bins is as expected (ForceAdd grows just enough, Resize sets it), bin i holds exactly the values added to i since the last Reset (or since the bin was created), other bins are untouched; Add with an index beyond the bins is out of bounds, and ForceAdd with index 2^64-1 never returns.", "quantifier": "all call histories", "why_tests_cant": "histories are unbounded", "anchors": ["include/bwsl/HistAccumulator.hpp:HistAccumulator::Add", "include/bwsl/HistAccumulator.hpp:HistAccumulator::ForceAdd", "include/bwsl/HistAccumulator.hpp:HistAccumulator::Resize", "include/bwsl/HistAccumulator.hpp:HistAccumulator::Reset"]}
{"id": "C54", "title": "Histogram counts add up", "statement": "Without Resize, GetCount() is the sum of GetCount(i) over all bins in every reachable state. After a shrinking Resize this fails (the dropped measurements stay counted).", "quantifier": "all call histories", "why_tests_cant": "histories are unbounded", "anchors": ["include/bwsl/HistAccumulator.hpp:HistAccumulator::GetCount"]}
{"id": "C55", "title": "Unit histograms give exact frequencies", "statement": "After any history of fewer than 2^53 unit Adds, GetResult(i) is bit for bit the correctly rounded count_i/total, empty bins give exactly 0, and every result lies in [0,1].", "quantifier": "all histories", "why_tests_cant": "statistical test only samples one distribution", "anchors": ["include/bwsl/HistAccumulator.hpp:HistAccumulator::GetResult", "include/bwsl/HistAccumulator.hpp:HistAccumulator::GetResults"]}
{"id": "C56", "title": "GetResults(idx) divides every component by component idx", "statement": "REFUTED: the divisor r[idx] is overwritten by its own quotient during the loop, so only components up to and including idx are divided by it; the later ones are divided by 1 (when r[idx] is finite and non-zero) and come back un-normalised. Exact characterisation proved.", "quantifier": "all histograms and idx", "why_tests_cant": "no test; universal over states", "anchors": ["include/bwsl/HistAccumulator.hpp:HistAccumulator::GetResults"]}
{"id": "C57", "title": "Move bookkeeping invariant", "statement": "In every state reachable by Propose/Accept/Reject/Impossible/Add/Reset calls (including calls that throw), proposed == accepted+rejected+impossible+(1 if a proposal is pending), counts modulo 2^64, and the number of recorded probabilities is accepted+rejected+impossible.", "quantifier": "all call histories incl. failing calls", "why_tests_cant": "histories are unbounded", "anchors": ["include/bwsl/mcutils/MoveStats.hpp:MoveStats::UpdateIfProposed", "include/bwsl/mcutils/MoveStats.hpp:MoveStats::UpdateIfNotProposed"]}
{"id": "C58", "title": "Out-of-order move calls throw and change nothing", "statement": "Propose with a pending proposal, and Accept/Reject/Impossible without one, throw MoveInvalidSequence and leave all observable statistics unchanged; every in-order call succeeds; Add throws exactly when a proposal is pending and then changes nothing, otherwise equals Propose followed by the matching outcome.", "quantifier": "all states", "why_tests_cant": "all reachable states", "anchors": ["include/bwsl/mcutils/MoveStats.hpp:MoveStats::Add", "include/bwsl/mcutils/MoveStats.hpp:MoveStats::Propose", "include/bwsl/mcutils/MoveStats.hpp:MoveStats::Accept"]}
{"id": "C59", "title": "Move statistics depend only on the successful outcomes since Reset", "statement": "After any history the counters are the numbers of successful calls of each kind since the last Reset, the average probability is the Kahan mean of the probabilities passed (0 for impossible moves) in order, and Reset returns to the state of a fresh object with the same name.", "quantifier": "all call histories", "why_tests_cant": "histories are unbounded", "anchors": ["include/bwsl/mcutils/MoveStats.hpp:MoveStats::Reset", "include/bwsl/mcutils/MoveStats.hpp:MoveStats::GetAverageProbability"]}
{"id": "C60", "title": "Move ratios are probabilities", "statement": "Once a move was proposed (fewer than 2^64 times) each of the three ratios is a double in [0,1], each is the correctly rounded quotient for counts below 2^53. Before any proposal GetAcceptedRatio is 0 but GetRejectedRatio and GetImpossibleRatio are NaN.", "quantifier": "all reachable states", "why_tests_cant": "rounding over all counts", "anchors": ["include/bwsl/mcutils/MoveStats.hpp:MoveStats::GetAcceptedRatio", "include/bwsl/mcutils/MoveStats.hpp:MoveStats::GetRejectedRatio", "include/bwsl/mcutils/MoveStats.hpp:MoveStats::GetImpossibleRatio"]}
{"id": "C61", "title": "Archived move statistics", "statement": "Saving and loading MoveStats restores all counters, the pending flag and the probability accumulator so later calls behave identically, but the name is not restored: the loading object's name is kept.", "quantifier": "all states and continuations", "why_tests_cant": "all states", "anchors": ["include/bwsl/mcutils/MoveStats.hpp:MoveStats::serialize"]}
{"id": "C62", "title": "MoveResult classification", "statement": "Every MoveResult with one of the three named statuses is exactly one of accepted/rejected/impossible, the builders produce the matching status and probability (0 for impossible) and the default one is impossible with probability 0.", "quantifier": "all statuses and probabilities", "why_tests_cant": "universal", "anchors": ["include/bwsl/mcutils/MoveResult.hpp:MoveResult", "include/bwsl/mcutils/MoveStatus.hpp:MoveStatus"]}
{"id": "C63", "title": "Observable group refines a map from keys to measurements", "statement": "For every history of Measure/AddObservable/PrintAndReset: each key's accumulator holds exactly the values measured under that key since the last print, in order; measuring an unknown key throws out_of_range and changes nothing; adding an existing observable (or duplicate constructor keys) changes nothing.", "quantifier": "all call histories, all key types with a strict order", "why_tests_cant": "histories are unbounded", "anchors": ["include/bwsl/ObservableGroup.hpp:ObservableGroup::Measure", "include/bwsl/ObservableGroup.hpp:ObservableGroup::AddObservable", "include/bwsl/ObservableGroup.hpp:ObservableGroup::PrintAndReset"]}
{"id": "C64", "title": "Observable files are rectangular tables", "statement": "PrintHeaders truncates the file and writes the keys in increasing order plus Count; each PrintAndReset appends one line with one mean per key in the same order plus the count of the first key, and resets every accumulator; as long as no new key is added after the header, the file reads back as a table with one row per print and the header's number of cells in each row (keys and numbers being printed without commas and newlines). A group constructed with at least one key never runs into undefined behaviour. Both calls on a group without observables dereference the end iterator (undefined).", "quantifier": "all call histories", "why_tests_cant": "histories are unbounded", "anchors": ["include/bwsl/ObservableGroup.hpp:ObservableGroup::PrintHeaders", "include/bwsl/ObservableGroup.hpp:ObservableGroup::PrintAndReset"]}
{"id": "C65", "title": "LinSpace sequence", "statement": "A LinSpace behaves under every sequence of calls (operator(), prefix and postfix ++, dereference, Collect) like a position in one fixed sequence: value i is fl(first + fl(step*i)), Collect(n) shows the next n values and does not move the object, begin() restarts and end() shows last. An iteration from begin() to end() (with the template operator==; the friend == and != of LinSpace are declared but never defined) visits exactly nsteps values. For doubles first < last the values start at first and never decrease, and value i differs from first + (last-first)*i/nsteps by at most about 5 unit roundoffs of |first|+|last|. In exact arithmetic value nsteps is last; for doubles it is not always.", "quantifier": "all first, last, steps and call sequences", "why_tests_cant": "rounding monotonicity over all inputs", "anchors": ["include/bwsl/LinSpace.hpp:LinSpace"]}
{"id": "C66", "title": "LogSpace sequence", "statement": "A LogSpace behaves under every sequence of calls like a position in the sequence first, first*base, (first*base)*base, ...; begin(), end(), Collect and iteration are as for LinSpace. In exact arithmetic the i-th value of LogSpace(first,last,n) is first*(last/first)^(i/n), so value n is last and consecutive ratios are constant, and the constructor from exponents gives base^(start+(stop-start)i/n). For doubles with a computed base of at least 1 the values are positive and never decrease, and value i has relative error at most (1+2^-53)^i - 1 against first*base^i.", "quantifier": "all parameters", "why_tests_cant": "unbounded", "anchors": ["include/bwsl/LogSpace.hpp:LogSpace"]}
{"id": "C67", "title": "Approx comparison laws", "statement": "For all doubles x, v and tolerances (the sign of a tolerance is ignored): x == Approx(x) for finite x and a tolerance that is not NaN; == does not depend on operand order; != negates it; enlarging a tolerance never turns == false; NaN is never equal, below or above; if |x-v| is within the absolute tolerance or the relative tolerance times |v| then x == Approx(v), and conversely up to rounding; x <= Approx(v) or x >= Approx(v) holds unless a value is NaN or both are infinite, and both hold exactly when x == Approx(v). With the default tolerances Approx(0) equals only zero. Approx(inf) == inf is false, as are <= and >=; exchanging value and Approx may change the result.", "quantifier": "all doubles, all tolerances", "why_tests_cant": "all doubles incl. special values", "anchors": ["include/bwsl/Approx.hpp:operator==", "include/bwsl/Approx.hpp:operator<=", "include/bwsl/Approx.hpp:operator>="]}
{"id": "C68", "title": "Enum string conversion round trip", "statement": "For every enum defined by the macro with distinct enumerator names, FromString(ToString(v)) == v for every enumerator; FromString of any other string throws and leaves the target unchanged; ToString of a value outside the enum yields '[ Unknown name ]'; distinct enumerators have distinct strings.", "quantifier": "all enumerator lists, all strings", "why_tests_cant": "quantifies over user enums and strings", "anchors": ["include/bwsl/EnumString.hpp:BWSL_DEFINE_ENUM_WITH_STRING_CONVERSIONS"]}
{"id": "C69", "title": "compare_files is content equality", "statement": "compare_files(p,q) is true exactly when both files can be opened and have identical bytes; it is symmetric, transitive, and reflexive exactly on readable files, and never reads past the end of a file.", "quantifier": "all file systems and contents", "why_tests_cant": "all contents", "anchors": ["include/bwsl/FileUtils.hpp:compare_files"]}
{"id": "C70", "title": "Random generator state survives serialization", "statement": "Saving a mersenne_twister_engine of any parameters (64-bit word type, as std::mt19937 and mt19937_64 have here) as text and loading it into any engine of the same type restores exactly the saved state (hence the same future outputs); different states have different texts. Loading succeeds exactly on texts that begin with the right count of numbers (optionally signed, below 2^64 in magnitude, read modulo 2^64; what follows is ignored) and otherwise throws invalid_argument, possibly after overwriting part of the engine.", "quantifier": "all engine states", "why_tests_cant": "2^19937 states", "anchors": ["include/bwsl/RNGUtils.hpp:save", "include/bwsl/RNGUtils.hpp:load"]}
{"id": "C71", "title": "Archived observable groups are restored", "statement": "Archiving an ObservableGroup reached by any history and loading the archive into any group restores the file name, the keys and every accumulator, and consumes exactly what was saved.", "quantifier": "all histories, all targets, all key types with a strict total order whose own archive form round-trips", "why_tests_cant": "histories are unbounded", "anchors": ["include/bwsl/ObservableGroup.hpp:ObservableGroup::serialize"]}
{"id": "C72", "title": "Conversions of rationals", "statement": "IsInt is true exactly when the rational is an integer; the explicit conversion to the integer type truncates towards zero; both are undefined exactly for a zero denominator and for minimum/-1. The conversion to double is the correctly rounded quotient when numerator and denominator have at most 53 bits (always for RationalInt), hence keeps order and equality; for 64-bit numbers it is finite with relative error at most 3u+9u^2 (u = 2^-53), but order and equality may be lost. A zero denominator gives an infinity, 0//0 gives NaN.", "quantifier": "all numerators and denominators of any width", "why_tests_cant": "2^128 objects; rounding", "anchors": ["include/bwsl/RationalNum.hpp:RationalNum::IsInt", "include/bwsl/RationalNum.hpp:RationalNum::operator T", "include/bwsl/RationalNum.hpp:RationalNum::operator double"]}
{"id": "C73", "title": "square, cube and the Euclidean norm", "statement": "square and cube of a long are exact when the result fits the type and undefined otherwise. l2norm of a container of long is undefined exactly when the sum of squares reaches 2^63, otherwise it is the root of the sum after two roundings, and correctly rounded when the sum is at most 2^53. In exact arithmetic l2norm is the Euclidean norm (zero only for the zero vector, absolutely homogeneous, triangle inequality). In doubles sum_squared and l2norm of n entries lie within factors (1-u)^(n+2) and (1+u)^(n+2) of the exact values when no square underflows and the result is finite; they are finite when the entries are finite, n <= 2^50 and the sum of squares is at most 2^1021; a single finite non-zero entry may give 0 or infinity.", "quantifier": "all containers", "why_tests_cant": "unbounded lengths; rounding", "anchors": ["include/bwsl/MathUtils.hpp:square", "include/bwsl/MathUtils.hpp:cube", "include/bwsl/MathUtils.hpp:sum_squared", "include/bwsl/MathUtils.hpp:l2norm"]}
{"id": "C74", "title": "dumpmt prints a freshly seeded Mersenne twister", "statement": "For an argument that starts (after blanks) with an integer x representable as int, dumpmt exits with 0 and prints a text which any std::mt19937_64 loads successfully, after which it holds the state the standard prescribes for the seed x mod 2^64 (312 words, position 312); what follows the number is ignored, an argument without a number counts as 0, different numbers give different outputs, a number outside int is undefined; without an argument the exit code is 1 and nothing is printed.", "quantifier": "all arguments", "why_tests_cant": "2^32 seeds, all argument texts", "anchors": ["applications/dumpmt.cpp:main", "include/bwsl/RNGUtils.hpp:load"]}
{"id": "C75", "title": "Rational algebra object for object", "statement": "Constructed rationals have equal numerators and denominators exactly when they are equal numbers, and so have the results of + - * / . Hence sums and products are commutative (undefined cases included), associative, distributive, a-a is the default object, a/a is 1//1, (a+b)-b is a, and the sum or product of a container is the same object in every order, whenever the expressions involved are defined; one order may overflow where another does not.", "quantifier": "all widths, all rationals, all container orders", "why_tests_cant": "unbounded", "anchors": ["include/bwsl/RationalNum.hpp:RationalNum::Simplify", "include/bwsl/RationalNum.hpp:operator+", "include/bwsl/RationalNum.hpp:operator*", "include/bwsl/RationalNum.hpp:operator-", "include/bwsl/RationalNum.hpp:operator/"]}
{"id": "C76", "title": "Histograms count", "statement": "After Add(i) for every i of a sequence of at most 2^53 bins below n (or ForceAdd on a default-constructed HistAccumulator, which ends with one bin more than the largest i), Count() is the length, and GetResults() gives for each bin the correctly rounded number of its occurrences over the length; the results sum to 1 within 2^-53, whatever the number of bins, but not always to exactly 1.", "quantifier": "all sequences, all numbers of bins", "why_tests_cant": "sequences are unbounded; rounding", "anchors": ["include/bwsl/HistAccumulator.hpp:HistAccumulator::Add", "include/bwsl/HistAccumulator.hpp:HistAccumulator::ForceAdd", "include/bwsl/HistAccumulator.hpp:HistAccumulator::GetResults"]}
{"id": "C77", "title": "Neighbours are the sites at distance one", "statement": "On closed chain/square/cubic lattices whose extents are all at least 2, AreNeighbors(a,b) holds exactly when GetDistance(a,b) == 1 (in doubles). REFUTED with an extent of 1, where a site is its own neighbour at distance 0.", "quantifier": "all sizes (4*sum of squares at most 2^53), all site pairs", "why_tests_cant": "all sizes and pairs; rounding", "anchors": ["include/bwsl/Lattice.hpp:Lattice::AreNeighbors", "include/bwsl/Lattice.hpp:Lattice::GetDistance"]}
{"id": "C78", "title": "Shortest walks over neighbour lists", "statement": "Every site of the four built-in lattices can be reached from every other one through neighbour lists. The least number of hops from a to b is sum_i min(d_i, L_i-d_i) on closed chain/square/cubic lattices, sum_i |d_i| on open ones, max(|d_1|,|d_2|,|d_1+d_2|) on the open triangular lattice and the minimum of that over all periodic images of b on the closed one.", "quantifier": "all sizes, all site pairs, walks of any length", "why_tests_cant": "walks are unbounded", "anchors": ["include/bwsl/Lattice.hpp:Lattice::GetNeighbors", "include/bwsl/Lattice.hpp:Lattice::AreNeighbors"]}
{"id": "C79", "title": "Neighbour lists without repetition", "statement": "On the closed built-in lattices the neighbour list of a site has no repeated entries exactly when every extent is at least 3, and contains the site itself exactly when some extent is 1; on open ones it never repeats an entry and never contains the site.", "quantifier": "all sizes and sites of the four built-in lattices", "why_tests_cant": "all sizes", "anchors": ["include/bwsl/Lattice.hpp:Lattice::GetNeighbors"]}
{"id": "C80", "title": "Minimum-image vectors", "statement": "On closed chain/square/cubic lattices GetVector(a,b) holds exact integers, each congruent to the coordinate difference modulo the extent and at most half the extent in magnitude, and GetDistance(a,b) is its correctly rounded length. GetVector(b,a) is the negative in every component shorter than half an extent; components of exactly half an extent have that magnitude in both. REFUTED: GetVector(b,a) = -GetVector(a,b) for all pairs (half an extent away both vectors point the same way).", "quantifier": "all sizes (4*sum of squares at most 2^53), all site pairs", "why_tests_cant": "all sizes and pairs; rounding", "anchors": ["include/bwsl/Lattice.hpp:Lattice::GetVector", "include/bwsl/Lattice.hpp:Lattice::GetDistance"]}
{"id": "C81", "title": "Triangle inequality of lattice distances", "statement": "On closed chain/square/cubic lattices (1-u)*GetDistance(a,c) <= (1+u)*(GetDistance(a,b)+GetDistance(b,c)), u = 2^-53, for all sites. REFUTED without the allowance for rounding (sites (0,0), (1,1), (4,4) of a 9 by 9 square lattice, the sum computed in doubles).", "quantifier": "all sizes (4*sum of squares at most 2^53), all site triples", "why_tests_cant": "all sizes and triples; rounding", "anchors": ["include/bwsl/Lattice.hpp:Lattice::GetDistance"]}
{"id": "C82", "title": "Unit spacing of the built-in Bravais lattices", "statement": "In exact arithmetic distinct points of the four built-in Bravais lattices are at distance at least 1, and exactly the GetGamma() distinct nearest neighbours are at distance 1; on the triangular lattice the distance is sqrt(i^2+i*j+j^2). In doubles the triangular distance lies within factors (1-u)^5 and (1+u)^5 of it for |i|,|j| <= 2^51, and the neighbours are exactly the points with a computed distance between 1/2 and 3/2 (it is not always 1).", "quantifier": "all points", "why_tests_cant": "all coordinates; rounding", "anchors": ["include/bwsl/Bravais.hpp:Bravais::GetDistance", "include/bwsl/Bravais.hpp:TriangularLattice"]}
{"id": "C83", "title": "Sum rule and symmetries of structure factors", "statement": "In exact arithmetic, on closed chain/square/cubic lattices of any extents and on all closed Bravais lattices with inverse matrices and equal extents (such as the triangular one): one AccumulateSk raises the sum over all momenta by mult * sum_j n_j^2 / N; opposite momenta receive equal increments; adding a constant to all occupations changes the zero-momentum entry only and a common factor comes out squared; moving all occupations by the displacement of any site (GetUnMappedSite) changes nothing. REFUTED for triangular lattices with unequal extents (4 by 1).", "quantifier": "all sizes, occupations, multipliers and displacements", "why_tests_cant": "all sizes; identities of exponential sums", "anchors": ["include/bwsl/Lattice.hpp:Lattice::AccumulateSk", "include/bwsl/Lattice.hpp:Lattice::GetMomentum"]}
{"id": "C84", "title": "Distances on closed triangular lattices", "statement": "If neither extent of a closed triangular lattice exceeds twice the other: in exact arithmetic GetDistance(a,b) is the least length over all periodic images (not only those tried), so it is symmetric, zero exactly for a = b, at least 1 otherwise, and satisfies the triangle inequality. In doubles (extents up to 2^50) it lies within factors (1-u)^5 and (1+u)^5 of that length, symmetry and the triangle inequality hold up to the same factors, and for extents of at least 2 AreNeighbors(a,b) holds exactly when the computed distance is between 1/2 and 3/2. REFUTED for more elongated lattices (8 by 1: the distance from (0,0) to (4,0) exceeds 3.5 although an image is at distance sqrt(12)).", "quantifier": "all sizes, all site pairs and triples, all images", "why_tests_cant": "all sizes and images; rounding", "anchors": ["include/bwsl/Lattice.hpp:Lattice::GetDistance", "include/bwsl/Lattice.hpp:Lattice::AreNeighbors", "include/bwsl/Bravais.hpp:TriangularLattice"]}
{"id": "C85", "title": "Printed means and move statistics", "statement": "With p >= 0 digits after the point, PrintAndReset (and operator<< of MoveStats, p = 3) writes a finite double as a numeral with sign, normalised leading digit, p digits and signed exponent of at least two digits, denoting the double correctly rounded to p+1 significant digits: no number with p+1 digits is nearer, the relative error is at most 10^-p/2, order is kept. For p >= 16 different doubles have different texts; REFUTED for p = 15 and for the default 10. The text never contains a comma or newline, so the file of a group with integer keys is a table whatever is measured. The ratios printed for a MoveStats are within 1/1999 (relative) of counter/proposed.", "quantifier": "all finite doubles, all precisions, all histories", "why_tests_cant": "2^64 doubles times all precisions", "anchors": ["include/bwsl/ObservableGroup.hpp:ObservableGroup::PrintAndReset", "include/bwsl/mcutils/MoveStats.hpp:operator<<"]}
{"id": "C86", "title": "Saved lattice files lose nothing", "statement": "SavePositions, SaveDistances and SaveMomenta print doubles with fmt's default format. The text of a finite double is a decimal literal with one reading, with the sign of the double, for a number of at most 17 digits that is read back (correctly rounded) as the same double; no number with fewer digits is, and none with as many digits that is nearer. Different doubles have different texts; exponent notation is used exactly below 10^-4 and from 10^16 on. Every cell of a saved file is read back as the double GetPosition, GetVector(0,i) or GetMomentum returns, and two lattices that write the same file have equal vectors at all sites; SavePairs of a closed lattice with fewer than 2^32 sites writes one row per ordered pair with its number, its two sites and the three vectors, read back likewise, and closed lattices that write the same pair file have equal vectors between all pairs.", "quantifier": "all doubles, all lattices and sizes", "why_tests_cant": "2^64 doubles, all lattices", "anchors": ["include/bwsl/Lattice.hpp:Lattice::SavePositions", "include/bwsl/Lattice.hpp:Lattice::SaveDistances", "include/bwsl/Lattice.hpp:Lattice::SaveMomenta", "include/bwsl/Lattice.hpp:Lattice::SavePairs"]}
{"id": "C87", "title": "Accuracy of means and variances in doubles", "statement": "KnuthWelfordAccumulator: for n <= 2^53 doubles in [lo, hi] within [-B, B] (2^-900 <= B <= 2^1022), Mean() is finite and differs from the exact mean by at most u*((n+2)/2*B + 3*(hi-lo)), u = 2^-53 (Sum(): at most u*n*((n+6)/2*B + 3*(hi-lo)) for B <= 2^960); for 2 <= n <= 2^52, hi-lo >= 2^-400 and B <= 2^480, Variance() is finite and differs from the exact variance (divisor d = n-1 or n) by at most u*(n/d)*(hi-lo)*((n+4)*B + (n+14)*(hi-lo)): proportional to the spread of the values, so a large common offset does not destroy it; ScaledVariance() and StandardDeviation() likewise. Error() is within 4*u*r + 2^-1075 of r = StandardDeviation()/sqrt(n) whenever the deviation is finite. Any number of copies of one value give that value as mean and exactly zero variance, deviation and error. KahanAccumulator::Mean() is within 7*u*B and NeumaierAccumulator::Mean() within (3*u + 6*(n*u)^2)*B of the exact mean of n values of size at most B.", "quantifier": "all finite sequences of doubles in the stated ranges, all orders", "why_tests_cant": "Tests compare a few data sets against a reference with a tolerance; a bound valid for every data set and length needs an error analysis of each rounding.", "anchors": ["include/bwsl/accumulators/KnuthWelfordAccumulator.hpp: Add, Mean, Sum, Variance, ScaledVariance, StandardDeviation, Error", "include/bwsl/accumulators/KahanAccumulator.hpp: Mean", "include/bwsl/accumulators/NeumaierAccumulator.hpp: Mean"]}
{"id": "C88", "title": "Accuracy of weighted means and variances in doubles", "statement": "WestAccumulator: let n <= 2^49 be the number of added pairs with a positive weight, their values in [lo, hi] within [-B, B] and W their total weight (pairs with weight zero or less may hold any value, even NaN); D = hi-lo, u = 2^-53, e = u*((6n+10)*D + 5n*B). For 2^-900 <= B <= 2^500 and W <= 2^500, Mean() is finite and within e of the exact weighted mean, whatever the weights and their ratios; for W >= 2^-100, Sum() is within u*W*((12n+20)*D + (12n+5)*B) of the exact weighted sum. For D >= 2^-100, B <= 2^200 and 2^-100 <= W <= 2^200, PopulationVariance() is finite and within 2*((D+e)^2-D^2) + (5n+12)*u*(D+e)^2 of the exact weighted variance; for whole-number weights with 2 <= W <= 2^53, SampleFrequencyVariance() is within W/(W-1)*(2*((D+e)^2-D^2) + (4n+12)*u*(D+e)^2) of the exact one. SampleReliabilityVariance(): with V = W - (sum of squared weights)/W > 0 and k = W/V, k*(9n+5)*u <= 1/2, it is finite and within 2*k*((D+e)^2-D^2) + (22n+30)*u*k^2*(D+e)^2 of the exact one.", "quantifier": "all finite sequences of weighted doubles in the stated ranges, all orders and weight ratios", "why_tests_cant": "Tests compare a few data sets against a reference with a tolerance; a bound for every data set, length and ratio of weights needs an error analysis of each rounding.", "anchors": ["include/bwsl/accumulators/WestAccumulator.hpp: Add, Mean, Sum, PopulationVariance, SampleFrequencyVariance, SampleReliabilityVariance"]}
{"id": "C89", "title": "How often each random choice comes out", "statement": "Over the 2^64 words a 64-bit engine (std::mt19937_64) can deliver, with libstdc++'s generate_canonical and uniform_real_distribution: choose_between chooses entry i for exactly the words of one run [a,b), and (b-a)/2^64 differs from weight_i / (exact sum of the weights) by at most (6n+7)*2^-53, for n <= 2^46 finite weights >= 0 whose computed total is finite and at least 2^-1000; every word chooses an existing entry of positive weight. choose_between_psums does the same for non-decreasing sums, with the steps over the last sum as shares, up to 7*2^-53. choose_with_probability(p), 0 <= p <= 1, is true for exactly the words below some N, and N/2^64 differs from p by at most 2^-52.", "quantifier": "all lists of weights in the stated ranges, all 2^64 engine words", "why_tests_cant": "A test draws a few million numbers and sees deviations above 10^-4 at best; a bias in every one of 2^64 words needs a proof about monotone rounding.", "anchors": ["include/bwsl/MathUtils.hpp: choose_between", "include/bwsl/MathUtils.hpp: choose_between_psums", "include/bwsl/MathUtils.hpp: choose_with_probability"]}
{"id": "C90", "title": "Accuracy, order and distinctness of momenta in doubles", "statement": "On a closed chain, square or cubic lattice with extents up to 2^53, every component of GetMomentum(site) is finite and within 3*2^-53 relative of the exact 2*pi*(c - L/2)/L, so the momentum in the middle of the grid is exactly zero although M_PI, the product and the quotient are rounded. With extents up to 2^51 the components compare in doubles exactly as the coordinates do, and different sites have momenta that differ in a component.", "quantifier": "all chain, square and cubic lattices in the stated range, all sites and pairs of sites", "why_tests_cant": "Tests compare a few momenta of small lattices with tolerances; two sites of a long chain whose momenta round to the same double would never be met.", "anchors": ["include/bwsl/Lattice.hpp: ComputeMomenta", "include/bwsl/Lattice.hpp: GetMomentum", "include/bwsl/Bravais.hpp: GetReciprocalSpace"]}
{"id": "C91", "title": "Accuracy of structure factors in doubles", "statement": "On a closed chain, square or cubic lattice with at most 2^26 sites, given a sine and cosine within delta of the exact ones, AccumulateSk adds to every entry mult/N^2 times the textbook |sum_j n_j exp(i k.c_j)|^2, with exact momenta k = 2*pi*(c - L/2)/L and exact coordinates c_j, up to 2^-53 times the entry plus |mult|*(sum |n_j|/N)^2*(3E+6*2^-53), where E = delta + 2^-52*((d+6)*sum of the extents + N + 2); so rounding of momenta, phases, periodic images and sums stays linear in N and in the extents. ComputeSk does the same from zeros. For any lattice, whatever sine and cosine return, a multiplier >= 0 never decreases an entry whose result is finite.", "quantifier": "all hypercubic lattices in the stated range, all occupations and multipliers that are zero or between 2^-200 and 2^200 in size, all entries up to 2^1000, all sine and cosine functions within delta <= 1/200; every site", "why_tests_cant": "Tests compare a few sums on tiny lattices; how errors grow with the number of sites and with the phases k.x of far sites cannot be sampled.", "anchors": ["include/bwsl/Lattice.hpp: AccumulateSk", "include/bwsl/Lattice.hpp: ComputeSk", "include/bwsl/Lattice.hpp: ComputeMomenta"]}
{"id": "C92", "title": "LinSpace over integers", "statement": "LinSpace<int> and LinSpace<long> with 1 <= steps below the maximum of the type and last - first in range: every history of calls shows the values first + k*trunc((last-first)/steps), and is undefined exactly when the last value it computes, one more than it shows for operator() and Collect, does not fit. Up to position steps nothing overflows and all values lie between first and last; a loop from begin() to end() visits the first steps values. Value number steps misses last by less than steps and is last exactly when steps divides last - first. REFUTED: that the sequence reaches last (with steps > |last-first| it never leaves first), and that Collect(n) is defined when its n values fit (0 and the maximum of the type cannot be collected). Construction is undefined when last - first overflows or steps converts to zero.", "quantifier": "all signed types of up to 64 bits, all first, last, steps, all histories of calls", "why_tests_cant": "Truncation errors and the overflow of a value that is never shown depend on all arguments and on the length of the history.", "anchors": ["include/bwsl/LinSpace.hpp:LinSpace::LinSpace", "include/bwsl/LinSpace.hpp:LinSpace::operator++", "include/bwsl/LinSpace.hpp:LinSpace::operator()", "include/bwsl/LinSpace.hpp:LinSpace::Collect"]}
{"id": "C93", "title": "Numbers in the file of a group of observables", "statement": "Name observables in the constructor of an ObservableGroup or add them, call PrintHeaders, then make any calls that add no new observable and print no headers again. The file is then a table with the keys in increasing order above the columns and one row for each PrintAndReset(p). The cell of a key is not a number if nothing was measured for it since the previous PrintAndReset. Otherwise, if the values measured since then are finite and at most B in size, it is a number within (10^-p/2 + 11*2^-53)*B of their exact mean. The last cell is the number of values measured since then for the first key. Measurements of unknown keys throw and change nothing.", "quantifier": "all key types with a strict total order, all keys, values, precisions and histories of up to 2^49 calls, all B between 2^-900 and 2^960", "why_tests_cant": "The claim combines the map of accumulators, resets, the rounding of the compensated sum, of the mean and of the printed decimal over all histories of calls.", "anchors": ["include/bwsl/ObservableGroup.hpp:ObservableGroup::PrintHeaders", "include/bwsl/ObservableGroup.hpp:ObservableGroup::PrintAndReset", "include/bwsl/ObservableGroup.hpp:ObservableGroup::Measure", "include/bwsl/accumulators/KahanAccumulator.hpp:KahanAccumulator::Mean"]}
{"id": "C94", "title": "What reading a rational leaves in the object", "statement": "FromString(text, r) on RationalNum over a signed type, whether it throws or not, leaves in the numerator the integer of the type nearest to the integer at the front of the text, 0 if there is something else in front, and the old numerator if the text is blank. The denominator is set by the same rule from the text after an integer of the type and two slashes, and is left alone if the text does not start so. These rules determine the object. Rationals written with blanks in between are all read back by a loop on operator>> that runs until the stream fails, and it fails at the end of the text.", "quantifier": "all texts, all previous values, all signed types, all sequences of rationals and blanks between them", "why_tests_cant": "Failure paths of formatted input depend on every possible text, including out-of-range integers and text that ends early.", "anchors": ["include/bwsl/RationalNum.hpp:operator>>", "include/bwsl/RationalNum.hpp:FromString"]}
{"id": "C95", "title": "Accuracy and order of lerp and lerpi in doubles", "statement": "For doubles a, b of size at most 2^1022 and t in [0,1], lerp(a, b, t) is finite and differs from (1-t)a + tb by at most 4*2^-53*((1-t)|a| + t|b|) + 3*2^-1075; lerpi(i, j, a, b) with 0 <= i <= j <= 2^53 differs from a + (b-a)i/j by at most 6*2^-53*max(|a|,|b|) + 3*2^-1075. The result does not decrease when an endpoint grows. It lies between endpoints of opposite signs; between endpoints of the same sign it can lie outside, and it can decrease while t grows.", "quantifier": "all finite doubles a, b up to 2^1022, all t in [0,1], all 0 <= i <= j <= 2^53", "why_tests_cant": "The bound must hold for every triple of doubles including subnormal results; tests with tolerances cannot tell a bound in units of the last place from a looser one.", "anchors": ["include/bwsl/MathUtils.hpp:lerp", "include/bwsl/MathUtils.hpp:lerpi"]}
{"id": "C96", "title": "Accuracy of histogram results and of average probabilities", "statement": "After any allowed calls (at most 2^52) on a HistAccumulator, GetResult(i) differs from the exact sum S of the values in bin i over the number T of all measurements by at most (3*2^-53*|S| + 6*(n*2^-53)^2*A)/T + 2^-1075, where n is the number and A the sum of the sizes of the values in the bin (finite, A <= 2^1019). With unit measurements and no Resize the results of all bins add up to one within 2^-53, however many bins there are; a shrinking Resize breaks this. The average probability of a MoveStats with outcomes of probabilities in [0,1] is within 7*2^-53 of the exact mean, impossible moves counting as 0.", "quantifier": "all histories of calls of up to 2^52 (2^49 for moves) calls, all finite values", "why_tests_cant": "The bounds combine compensated summation, resets, growth of the histogram and a division for all histories.", "anchors": ["include/bwsl/HistAccumulator.hpp:HistAccumulator::GetResult", "include/bwsl/HistAccumulator.hpp:HistAccumulator::GetResults", "include/bwsl/mcutils/MoveStats.hpp:MoveStats::GetAverageProbability"]}
{"id": "C97", "title": "Programs that save, stop and start again", "statement": "A program makes calls on an accumulator, histogram, MoveStats or ObservableGroup, saves it to an archive now and then, and may stop at any time and start again by loading the last archive into any object (for MoveStats: one of the same name), or from the beginning if nothing was saved. At the end its object is equal to the one that the calls which were not lost (those before a save, or after the last restart) would have made in a program that never stopped. Files written by an ObservableGroup are as in that program if no printing call was lost; a row printed after the last save is otherwise printed twice.", "quantifier": "all histories of calls, saves and restarts, all objects that are loaded into", "why_tests_cant": "Tests save and load once; here every interleaving of calls, saves and restarts is covered.", "anchors": ["include/bwsl/accumulators/KahanAccumulator.hpp:KahanAccumulator::serialize", "include/bwsl/accumulators/NeumaierAccumulator.hpp:NeumaierAccumulator::serialize", "include/bwsl/accumulators/KnuthWelfordAccumulator.hpp:KnuthWelfordAccumulator::serialize", "include/bwsl/accumulators/WestAccumulator.hpp:WestAccumulator::serialize", "include/bwsl/accumulators/NaiveIntegerAccumulator.hpp:NaiveInteger::serialize", "include/bwsl/HistAccumulator.hpp:HistAccumulator::serialize", "include/bwsl/mcutils/MoveStats.hpp:MoveStats::serialize", "include/bwsl/ObservableGroup.hpp:ObservableGroup::serialize"]}
{"id": "C98", "title": "Accuracy of positions, distances and momenta on any Bravais lattice", "statement": "For a Bravais lattice of dimension d <= 2^20 whose matrix entries are zero or between 2^-300 and 2^300 in size, every component of GetRealSpace is within (d+2)*2^-53 of the exact combination of the stored vectors (relative to the same sum with all signs dropped), GetReciprocalSpace within (d+4)*2^-53, and GetDistance within (2d+6)*2^-53. On the triangular lattice GetDistance has a relative error of at most 19*2^-53 from sqrt(x^2+xy+y^2). On periodic lattices GetDistance is that close to the exact distance of an image in the first shell and exceeds the exact distance of no image in the shell by more; GetPosition and GetMomentum are within (d+2) and (d+6) units of 2^-53.", "quantifier": "all lattices of moderate entries (all four lattices of the library), all coordinates up to 2^53 (2^52 for wave vectors), all pairs of sites", "why_tests_cant": "Tests compare a few distances with a tolerance; the bound must hold for every lattice, pair of sites and extent.", "anchors": ["include/bwsl/Bravais.hpp:Bravais::GetRealSpace", "include/bwsl/Bravais.hpp:Bravais::GetReciprocalSpace", "include/bwsl/Bravais.hpp:Bravais::GetDistance", "include/bwsl/Lattice.hpp:Lattice::GetDistance", "include/bwsl/Lattice.hpp:Lattice::GetPosition", "include/bwsl/Lattice.hpp:Lattice::GetMomentum"]}
{"id": "C99", "title": "Random words and restarted simulations", "statement": "std::mt19937_64 in any state hands out, from its position on, the tempered words of the standard's recurrence for its 312 words, and never fails; seeded with s it starts after the standard's 312 state words for s, and an engine that loads what dumpmt prints for x does so for seed x mod 2^64. Archived with RNGUtils after any number of draws and loaded into an engine in any state, the draws continue as if nothing had happened. A client whose steps draw from the engine, saved and restarted at any times, ends in the state its surviving steps would have reached in one uninterrupted run on the standard's sequence, and the next words it draws are the next ones of that sequence.", "quantifier": "all engine states, seeds, numbers of draws, client steps (each use may depend on the words drawn before), histories of steps, saves and restarts", "why_tests_cant": "A test compares some draws of one seed after one restart; the claim is about every stop, every state loaded over and the whole infinite sequence.", "anchors": ["include/bwsl/RNGUtils.hpp:save", "include/bwsl/RNGUtils.hpp:load", "applications/dumpmt.cpp:main", "include/bwsl/MathUtils.hpp:choose_with_probability"]}
{"id": "C100", "title": "Jumps, vectors, distances, neighbours and walks agree", "statement": "On closed chain, square and cubic lattices GetVector(a,b) is GetJump(a,b) component by component, except that a component leading exactly half way round may point the other way (and sometimes does), and GetDistance(a,b) is the correctly rounded length of GetJump(a,b). With open or closed boundaries the shortest walk from a to b along neighbour lists takes exactly as many steps as the jump has (the sum of its sizes), and, extents being at least 2 when closed, AreNeighbors(a,b) holds exactly when that number is 1.", "quantifier": "all extents (below 2^32; the sum of squares of the extents below 2^51 for vectors and distances), all pairs of sites, both boundary conditions", "why_tests_cant": "The three answers come from different code (integer folding, a search over images, table look-up); tests compare each with a few constants, not with each other for every pair and extent.", "anchors": ["include/bwsl/HyperCubicGrid.hpp:HyperCubicGrid::GetJump", "include/bwsl/Lattice.hpp:Lattice::GetVector", "include/bwsl/Lattice.hpp:Lattice::GetDistance", "include/bwsl/Lattice.hpp:Lattice::AreNeighbors", "include/bwsl/Lattice.hpp:Lattice::GetNeighbors"]}
{"id": "C101", "title": "Values of a LogSpace of doubles are near the points asked for", "statement": "If log and pow have relative error at most eps and M_E is the double nearest to e, every value of LogSpace(first,last,n) up to number n is finite, positive and within the relative error 5/4*(i*(eps+2^-53) + i/n*(eps*(|ln first|+|ln last|) + 2^-51*ln(last/first))) of first*(last/first)^(i/n); in particular value n is that near last. The constructor from exponents has 2*eps more, relative to base^(start+(stop-start)*i/n). A correctly rounded library has eps = 2^-53.", "quantifier": "all libraries of that accuracy (eps up to 2^-20), all first <= last from 2^-1021 to 2^1022, all n up to 2^49 with n*eps <= 1/16, all i up to n", "why_tests_cant": "The error compounds over the steps and depends on the logarithms of the ends; tests compare a few short sequences with a tolerance.", "anchors": ["include/bwsl/LogSpace.hpp:LogSpace::LogSpace", "include/bwsl/LogSpace.hpp:LogSpace::Collect", "include/bwsl/LogSpace.hpp:LogSpace::operator++"]}
{"id": "C102", "title": "Structure factors agree with vectors, positions and correlations", "statement": "On a closed lattice whose momenta are dual to its positions, what AccumulateSk adds at momentum k is multiplier/volume^2 times the sum over all pairs of sites of n_a n_b cos(k.GetVector(a,b)), although periodic images are chosen pair by pair, and equally the squared modulus of the sum of n_a exp(i k.GetPosition(a)). Summing the added values times cos(k.GetVector(0,d)) over all momenta gives multiplier/volume times the correlation of the occupations at the displacement d, with the partner of site a being GetUnMappedSite(d,a).", "quantifier": "all Bravais lattices and sizes with dual momenta (all built-in ones up to triangular ones with unequal extents), fewer than 2^32 sites, all occupations, earlier contents, multipliers, momenta and displacements, over the real numbers", "why_tests_cant": "It relates three tables of the lattice for all pairs of sites and all momenta at once; tests evaluate a few momenta of small lattices.", "anchors": ["include/bwsl/Lattice.hpp:Lattice::AccumulateSk", "include/bwsl/Lattice.hpp:Lattice::GetVector", "include/bwsl/Lattice.hpp:Lattice::GetMomentum", "include/bwsl/Lattice.hpp:Lattice::GetPosition"]}
{"id": "C103", "title": "Bonds are counted alike from both ends, and closed lattices look the same from every site", "statement": "On every lattice, open or closed, b occurs as often in GetNeighbors(a) as a occurs in GetNeighbors(b), so a loop over all sites and their neighbours meets each bond as often from one end as from the other. On closed lattices, moving a site by GetUnMappedSite(t,.) moves its neighbour list entry by entry, moving both sites of a pair changes neither AreNeighbors nor GetDistance nor GetVector, and the distances and vectors to all sites are, bit for bit and with multiplicities, the same from every site. Open lattices do not have the second half.", "quantifier": "all number types, all Bravais lattices with directions in opposite pairs, all extents, open and closed boundaries, all sites and translations", "why_tests_cant": "Repeated neighbours appear only for particular extents, and the statement is about all pairs of sites of all lattices; tests look at the neighbours of a few sites.", "anchors": ["include/bwsl/Lattice.hpp:Lattice::GetNeighbors", "include/bwsl/Lattice.hpp:Lattice::AreNeighbors", "include/bwsl/Lattice.hpp:Lattice::GetDistance", "include/bwsl/Lattice.hpp:Lattice::GetVector", "include/bwsl/HyperCubicGrid.hpp:HyperCubicGrid::GetUnMappedSite"]}
{"id": "C104", "title": "Accumulators agree with one another and with reordered data", "statement": "Exactly computed, a WestAccumulator given integer weights has the mean, sum, population and frequency variance of a KnuthWelfordAccumulator given each value that many times; a common factor of all weights changes neither mean nor population nor reliability variance; no result depends on the order of the data; replacing x by a+b*x replaces the mean m by a+b*m and variances v by b^2*v. In doubles the means that Kahan, Neumaier, Knuth-Welford and unit-weighted West accumulators give for the same values, each in any order, differ by at most stated multiples of 2^-53 times the bound of the values. Not true: one entry of weight two has no variance while two entries have, and unit weights are not bit for bit the unweighted accumulator.", "quantifier": "all sequences of values and weights, all permutations, builds with and without checks; the bounds for up to 2^49 finite values with bounds between 2^-900 and 2^500", "why_tests_cant": "It compares different algorithms on all data and all orders; tests feed each accumulator one short sequence.", "anchors": ["include/bwsl/accumulators/WestAccumulator.hpp:WestAccumulator::Add", "include/bwsl/accumulators/KnuthWelfordAccumulator.hpp:KnuthWelfordAccumulator::Add", "include/bwsl/accumulators/KahanAccumulator.hpp:KahanAccumulator::Mean", "include/bwsl/accumulators/NeumaierAccumulator.hpp:NeumaierAccumulator::Mean"]}
{"id": "C105", "title": "Negated data give negated results bit for bit, and sums follow powers of two", "statement": "Given the negatives of all values, Kahan, Neumaier, Knuth-Welford and West accumulators end every call the same way and report the negated sums and means and the same counts, variances, standard deviations and errors, bit for bit up to the sign of zero, whatever the values, infinities and NaN included. Given values larger by the factor 2^k, Kahan and Neumaier accumulators report sums larger by exactly 2^k as long as the larger sum is finite, down to subnormal numbers; for means this fails near the smallest numbers.", "quantifier": "all sequences of doubles, all weights, all k >= 0, builds with and without checks", "why_tests_cant": "Symmetry of rounding through a chain of rounded operations is a statement about all doubles and all sequences; tests compare decimal values with a tolerance.", "anchors": ["include/bwsl/accumulators/KahanAccumulator.hpp:KahanAccumulator::Add", "include/bwsl/accumulators/NeumaierAccumulator.hpp:NeumaierAccumulator::Add", "include/bwsl/accumulators/KnuthWelfordAccumulator.hpp:KnuthWelfordAccumulator::Add", "include/bwsl/accumulators/WestAccumulator.hpp:WestAccumulator::Add"]}
{"id": "C106", "title": "Opposite momenta have the same structure factor bit for bit, and opposite arguments give opposite values", "statement": "On a closed lattice of doubles, built on any Bravais lattice, the momenta of two sites on opposite sides of the middle are each other's negatives bit for bit up to the sign of zero. AccumulateSk adds the same double to both entries, whatever the occupations, if the library's sine is odd and its cosine even; and negated occupations give the same list. lerp, lerpi and every sequence of calls on a LinSpace with negated end points show the negated doubles, and the norm of a negated container is the same double. Running a LinSpace or lerp backwards gives the same values in exact arithmetic, but not in doubles.", "quantifier": "all Bravais lattices and sizes, all occupations, previous structure factors and multipliers including infinities and NaN, all odd sines and even cosines, all call histories", "why_tests_cant": "Bit for bit symmetry through rounded sums of any length cannot be enumerated; tests look at a few momenta with a tolerance.", "anchors": ["include/bwsl/Lattice.hpp:Lattice::ComputeMomenta", "include/bwsl/Lattice.hpp:Lattice::AccumulateSk", "include/bwsl/MathUtils.hpp:lerp", "include/bwsl/LinSpace.hpp:LinSpace::operator++"]}
{"id": "C107", "title": "Walkers hopping to random neighbours satisfy detailed balance and keep their stationary distribution", "statement": "A walker that hops to the neighbour chosen by choose_between with equal weights from GetNeighbors always lands on a neighbour, whatever the word of the engine, if every site has one; from an isolated site the program is undefined. Each neighbour is reached for its share of the 2^64 words up to (6 gamma + 7) 2^-53 per occurrence, though not exactly. Over any number n of hops, the numbers of word lists leading from a to b and from b to a are in the inverse ratio of the numbers of neighbours, equal on closed lattices, up to n times the allowance of one hop; and a crowd distributed like the numbers of neighbours stays so distributed.", "quantifier": "all Bravais lattices, sizes and boundary conditions, all sites, all words and all numbers of hops", "why_tests_cant": "The number of word lists is (2^64)^n; simulation only samples it and cannot tell a small bias from noise.", "anchors": ["include/bwsl/Lattice.hpp:Lattice::GetNeighbors", "include/bwsl/MathUtils.hpp:choose_between"]}
{"id": "C108", "title": "Structure factors computed in doubles on triangular lattices are accurate, obey the sum rule and show a single peak for constant occupations", "statement": "On closed triangular lattices of equal extents s with s^2 <= 2^26 sites, AccumulateSk and ComputeSk in double arithmetic return finite numbers, each within (3 E + 6u) |mult| (sum |n_j|)^2 / N^2 of the exact structure factor at the exact momentum of its index, where E = delta + 2u (200 s + s^2 + 2), u = 2^-53 and delta bounds the error of the platform's sin and cos; AccumulateSk adds one rounding of the previous entry. On these and on closed chain, square and cubic lattices, the entries of ComputeSk add up to mult times the mean of the squared occupations within the same relative allowance, and constant occupations a give mult a^2 at the site of momentum zero and zero elsewhere within it.", "quantifier": "all extents, all occupation numbers and multipliers in the stated range, all sine and cosine functions within delta, all sites", "why_tests_cant": "The bound covers rounding in the square root of three, in the momenta, in the positions and in the sums for every extent at once; a test compares a few lattices with another floating-point result.", "anchors": ["include/bwsl/Lattice.hpp:AccumulateSk", "include/bwsl/Lattice.hpp:ComputeSk", "include/bwsl/Bravais.hpp:TriangularLattice"]}
{"id": "C109", "title": "Metropolis walkers satisfy detailed balance for the given weights and their moves are all counted", "statement": "A walker that proposes a random neighbour with choose_between, accepts it with choose_with_probability(weight[b]/weight[a]) and records the move in MoveStats never leaves the lattice; after n moves the statistics show n proposals, each accepted or rejected, and without accepted moves the site is unchanged. A move to another site happens for the textbook share of the pairs of words, up to 2(gamma(6 gamma + 7) + 4) 2^-53. Over n moves the numbers of word lists leading from a to b and back are in the inverse ratio of the weights times the numbers of neighbours, on closed lattices of the weights, up to n times that allowance, and the distribution given by them is kept. On open lattices the weights alone are not balanced.", "quantifier": "all Bravais lattices, sizes and boundary conditions, all weights between 2^-500 and 2^500, all sites, all words and all numbers of moves below 2^64", "why_tests_cant": "Simulations only sample the (2^64)^(2n) word lists and cannot tell a small bias from noise, nor cover all weights.", "anchors": ["include/bwsl/Lattice.hpp:Lattice::GetNeighbors", "include/bwsl/MathUtils.hpp:choose_with_probability", "include/bwsl/mcutils/MoveStats.hpp:MoveStats::Add"]}
{"id": "C110", "title": "Exactly which fractions are stored with a negative denominator, compare the wrong way round, or cannot be constructed", "statement": "RationalNum(n, d) stores a negative denominator exactly if n/d is negative and the continued fraction of its magnitude has even length. So two constructed numbers compare correctly if both or neither is of that kind, and the wrong way round otherwise; whole numbers are always stored over 1; and every -1/d is stored as 1//-d and compares as greater than zero. The constructor is undefined exactly for 0/0 and for fractions in lowest terms that contain the least number of the type and would have to change signs.", "quantifier": "all widths from 2 to 64 bits, all numerators and denominators of the type", "why_tests_cant": "The sign depends on the parity of the number of steps of Euclid's algorithm; a few sampled fractions show either sign and no pattern.", "anchors": ["include/bwsl/RationalNum.hpp:RationalNum::RationalNum", "include/bwsl/RationalNum.hpp:RationalNum::Simplify", "include/bwsl/MathUtils.hpp:get_gcd"]}
{"id": "C111", "title": "The math templates at doubles, long, unsigned and int: which results are exact, how far off the others are, and where they go wrong", "statement": "accumulate_sum of n doubles is off by at most n-1 roundings of the sum of the magnitudes, is exact for whole numbers up to 2^53, and lies correspondingly close to a KahanAccumulator's sum; accumulate_product is the product up to n-1 rounding factors unless a partial product underflows; absdiff<double> is the distance rounded once, symmetric, and zero only for equal arguments, absdiff<long> is undefined exactly when the distance is no long; max and min of doubles are extreme elements unless the first element is NaN; sum_into and subtract_into round each component once but do not undo each other; cbinomial<size_t> is exact while the last product fits and silently wrong beyond; get_gcd on unsigned numbers and signeddiff<unsigned,long> are always right; index_to_array into ints agrees with longs for extents up to 2^31 only.", "quantifier": "all doubles (finite without overflow where a bound is stated), all lengths up to 2^49, all integers of the types", "why_tests_cant": "The bounds hold for every sequence and order of values, and the failures occur at sizes, partial products and positions that sampled inputs do not hit.", "anchors": ["include/bwsl/MathUtils.hpp:accumulate_sum", "include/bwsl/MathUtils.hpp:accumulate_product", "include/bwsl/MathUtils.hpp:absdiff", "include/bwsl/MathUtils.hpp:cbinomial", "include/bwsl/MathUtils.hpp:get_gcd", "include/bwsl/MathUtils.hpp:index_to_array"]}
{"id": "C112", "title": "A histogram with one bin per displacement gathers the correlations of site occupations, and its transform is the structure factor", "statement": "Adding n_a n_b to bin GetMappedSite(a,b) of a HistAccumulator with GetNumSites() bins, for all pairs of sites of a closed grid and all configurations, never throws or leaves the bins, and gives every bin exactly one value per site and configuration. For whole occupation numbers GetResult(s) is the correlation of each site with the site displaced by s, over the number of pairs and configurations, rounded once; opposite displacements get equal results; the bins add up to the mean squared particle number; and the cosine transform of the bins with GetVector and GetMomentum agrees with what AccumulateSk gathers from the same configurations, up to one rounding of the magnitudes.", "quantifier": "all extents, all numbers of configurations with M P^2 < 2^64 (<= 2^53 for results), all whole occupations whose squared totals add up to at most 2^53; structure factors on hypercubic and equal-extent Bravais lattices, exact real lattice", "why_tests_cant": "That displacements, histogram bins and structure factors belong together for every grid, every configuration and every momentum cannot be settled on a few small lattices, and rounding hides small mismatches.", "anchors": ["include/bwsl/HistAccumulator.hpp:Add", "include/bwsl/HistAccumulator.hpp:GetResult", "include/bwsl/HyperCubicGrid.hpp:GetMappedSite", "include/bwsl/HyperCubicGrid.hpp:GetUnMappedSite", "include/bwsl/Lattice.hpp:AccumulateSk", "include/bwsl/Lattice.hpp:GetVector"]}
{"id": "C113", "title": "compare_files tells saved lattices apart exactly when their tables differ", "statement": "If two lattices save their positions, distance vectors, momenta or pairs in two files, compare_files on these files returns true exactly if the lattices have as many sites and the corresponding vectors are the same doubles, bit for bit. Closed and open lattices of the same extents write equal position files, but different distance files on chain, square and cubic lattices as soon as one extent is at least three.", "quantifier": "all pairs of Bravais lattices, extents and boundary conditions (pairs: closed, fewer than 2^32 sites), all prior contents of the file system, all distinct writable names", "why_tests_cant": "That no two different tables ever produce equal bytes, and that equal tables always do, is a statement about all lattices and all doubles; a test compares a few files.", "anchors": ["include/bwsl/FileUtils.hpp:compare_files", "include/bwsl/Lattice.hpp:SavePositions", "include/bwsl/Lattice.hpp:SaveDistances", "include/bwsl/Lattice.hpp:SaveMomenta", "include/bwsl/Lattice.hpp:SavePairs"]}
{"id": "C114", "title": "Random streams of different seeds never merge", "statement": "Two std::mt19937_64 engines seeded differently modulo 2^64 - in particular engines that load what dumpmt prints for two different numbers - never fall into step: however many words both have handed out, among the next 312 there is one that differs. If two streams share 312 words in a row at different places, one stream is the other one without its first words. Engines in any states that hand out the same 312 words hand out the same words forever. Every seeded stream is periodic from its first word on, and among any 312 words in a row one is not zero, so that no seed gets stuck.", "quantifier": "all pairs of seeds, all numbers of words drawn, all places of overlap, all engine states (312 words below 2^64, any position)", "why_tests_cant": "A test looks at the first few words of a few seeds; that no two of 2^64 streams coincide at any later time concerns sequences far longer than any run.", "anchors": ["applications/dumpmt.cpp:main", "include/bwsl/RNGUtils.hpp:load"]}
{"id": "C115", "title": "Which lattices have sublattices: checkerboards and three-colourings", "statement": "On chain, square and cubic lattices that are open, or closed with even extents, the parity of the sum of the coordinates (GetCoordinates) differs between any two neighbours (AreNeighbors), walks over the neighbour lists alternate between the two sublattices, and on closed ones each sublattice has half of the sites; a closed lattice with an odd extent cannot be coloured with two colours at all. Triangular lattices can be coloured with three colours (by the difference of the coordinates modulo three) exactly if they are open or both extents are multiples of three, and never with two if both extents are at least two.", "quantifier": "all extents, open and closed boundaries, all colourings, all pairs of sites, walks of any length, over doubles and exact numbers alike", "why_tests_cant": "That no colouring exists is a statement about exponentially many assignments for each of infinitely many lattices; a test can only try one rule on a few sizes.", "anchors": ["include/bwsl/Lattice.hpp:GetNeighbors", "include/bwsl/Lattice.hpp:AreNeighbors", "include/bwsl/HyperCubicGrid.hpp:GetCoordinates", "include/bwsl/Bravais.hpp:TriangularLattice"]}
{"id": "C116", "title": "Comparing the observable files of two runs decides whether their results agree", "statement": "Two programs each create an ObservableGroup on its own writable file, call PrintHeaders and then measure, re-add known observables and PrintAndReset with at least 16 digits in any order. Then compare_files on the two files answers true exactly if the observables are the same and, print for print, every observable's mean is the same double and the first observable was measured equally often. In particular runs that feed every observable the same values in the same order between prints give equal files, whatever the order in which indices are given or observables are interleaved, and whether or not overflow checks are on. With the default precision of 10 digits, and even with 15, runs with different results can compare equal.", "quantifier": "all sets of indices, all strict total orders on them, all call sequences up to 2^53 calls, all doubles, all file names and prior contents of other files", "why_tests_cant": "Equality of files says something about the doubles only if the text of a number determines the double, for all doubles; a golden-file test compares one pair of runs.", "anchors": ["include/bwsl/ObservableGroup.hpp:PrintHeaders", "include/bwsl/ObservableGroup.hpp:PrintAndReset", "include/bwsl/FileUtils.hpp:compare_files"]}
{"id": "C117", "title": "Results of batches of measurements combine to the results of all measurements", "statement": "If measurements are split into batches with one accumulator each, a WestAccumulator given each batch's Mean with its Count as weight has the Mean and Sum that one accumulator of all measurements has, and the scaled variance of all is the sum of those of the batches plus the total count times the WestAccumulator's population variance. For batches of one size a KnuthWelfordAccumulator of the batch means has the overall mean, and its (uncorrected) variance plus the mean of the batch variances is the overall variance; for different sizes it has another mean. In doubles, with KahanAccumulators for the batches, the combined mean is off by at most (18 n + 28) 2^-53 B for n batches (n + 16 instead for batches of one size), however many measurements each has. The same holds for the rows that an ObservableGroup prints, weighted with the Count column, for observables that are measured as often as the first.", "quantifier": "all batches, sizes and numbers of batches (totals below 2^64 exactly, up to 2^49 in doubles), all values up to B in [2^-900, 2^490], all interleavings of calls on a group", "why_tests_cant": "The law of total variance and the error bounds are over all splittings and values; a test checks single examples with a tolerance.", "anchors": ["include/bwsl/accumulators/WestAccumulator.hpp:Add", "include/bwsl/accumulators/KnuthWelfordAccumulator.hpp:ScaledVariance", "include/bwsl/accumulators/KahanAccumulator.hpp:Mean", "include/bwsl/ObservableGroup.hpp:PrintAndReset"]}
{"id": "C118", "title": "Ends and winding numbers of walks depend only on how often each direction is taken", "statement": "On a closed lattice whose neighbour steps lead less than half around (for the built-in lattices: every extent at least three), take at each site the j-th neighbour of GetNeighbors for given numbers j. The jumps (GetJump) of such a walk add up to the sum of the lattice displacements of the directions taken, and it ends at the start moved by that sum. So reordering the directions, or inserting a hop and its reverse anywhere, changes neither the end nor the sum of the jumps nor GetWinding; with an extent of two it can. A closed walk on a chain, square or cubic lattice with winding numbers k takes at least sum |k_i| L_i hops and an even number more.", "quantifier": "all Bravais lattices with short steps, all extents below 2^32, all starts, all sequences of up to 2^32 directions, all orders", "why_tests_cant": "Invariance of the winding number under local changes of a walk is about all walks of any length on all lattices; tests follow a few walks.", "anchors": ["include/bwsl/Lattice.hpp:GetNeighbors", "include/bwsl/Lattice.hpp:GetWinding", "include/bwsl/HyperCubicGrid.hpp:GetJump", "include/bwsl/Bravais.hpp:GetNeighbor"]}
{"id": "C119", "title": "Lattice momenta add up and their plane waves are a basis", "statement": "On a closed lattice whose momenta are dual to its periods (chain, square, cubic; triangular with equal extents) the sum of any two momenta of GetMomentum is, up to whole turns at every lattice vector, exactly one of the momenta, at grid coordinates (c + c' - L/2) mod L. With the vectors x_j = GetVector(0, j), sum_j e^{i(k_q - k_i) x_j} is the number of sites for i = q and 0 otherwise, and likewise with sites and momenta exchanged. So occupations are recovered from their Fourier sums at the momenta, while equal structure factors of AccumulateSk do not imply equal occupations. Occupations b + a cos(k_q x + phi) raise the structure factor only at the momenta q and -q (and b at zero): by mult a^2/4 each, or by mult a^2 cos^2 phi where q and -q are the same.", "quantifier": "all dual Bravais lattices, all extents, all pairs of momenta, all occupations, amplitudes, backgrounds and phases (real arithmetic)", "why_tests_cant": "Orthogonality and completeness are identities over all pairs of sites and momenta of lattices of every size and dimension; tests with doubles see only approximate values for a few.", "anchors": ["include/bwsl/Lattice.hpp:GetMomentum", "include/bwsl/Lattice.hpp:GetVector", "include/bwsl/Lattice.hpp:AccumulateSk"]}
{"id": "C120", "title": "Energies of bonds change as the neighbours of the changed sites say", "statement": "Let the energy of values on the sites be half the sum of V(s_a, s_b) over all sites a and all entries b of GetNeighbors(a), for a symmetric V. Giving one site a new value changes it by the difference of sum_{b in GetNeighbors(a)} V(., s_b), on open built-in lattices and closed ones with extents of at least two (with an extent of one this fails, as a site is its own neighbour); weights exp(-beta E) change by the factor this determines. Exchanging the values of two sites changes the energy by the two single differences, corrected for each time one occurs among the neighbours of the other. New values on sites of which no two are neighbours, in particular on one sublattice, change it by the sum of the single differences.", "quantifier": "all lattices, open and closed, all symmetric couplings of values of any type, all values, sites and sets of non-neighbouring sites", "why_tests_cant": "A local update rule has to agree with the full energy for every configuration, coupling and lattice, including doubled bonds at extents of two; tests compare a few configurations.", "anchors": ["include/bwsl/Lattice.hpp:GetNeighbors", "include/bwsl/Lattice.hpp:AreNeighbors", "include/bwsl/Lattice.hpp:ComputeNeighbors"]}
{"id": "C121", "title": "Averaged over all walks there is no drift and squared distances grow as the number of hops", "statement": "Follow GetNeighbors from a site of a closed lattice along each of the gamma^n sequences of n directions, add up GetJump over the hops and turn the sum into a vector with GetRealSpace. If steps are shorter than half of the extents, then each component of the vectors averages to zero and their squared lengths average to n times the average of the squared lengths of the single hops. On the built-in lattices with extents of at least three hops have length one and the average is exactly n, in exact arithmetic, whatever the size of the lattice, so walks around the boundary included. With an extent of two there is a drift.", "quantifier": "all closed lattices with short steps, all starting sites, all numbers of hops up to 2^32; all extents of at least three for the built-in ones", "why_tests_cant": "The number of walks grows exponentially, and a test that samples them sees the average only within statistical errors; it has to hold for each lattice, size and number of hops.", "anchors": ["include/bwsl/Lattice.hpp:GetNeighbors", "include/bwsl/HyperCubicGrid.hpp:GetJump", "include/bwsl/Bravais.hpp:GetRealSpace"]}
{"id": "C122", "title": "Numbers of walks between sites are symmetric, compose, and follow from the momenta", "statement": "On closed lattices, follow GetNeighbors along all gamma^n sequences of n directions. As many of them lead from a to b as from b to a; those of n + m hops are those of n hops to any site times those of m hops from there, summed over the sites. Where the momenta are dual to the vectors (chain, square and cubic lattices of any extents, triangular ones with equal extents) the number is the sum over GetMomentum of e(k)^n cos(k.(x_a - x_b)) divided by the number of sites, e(k) being the sum of cos(k.d) over the hops d and x from GetVector. So the number of returns is the same for all sites, and after an even number of hops no site is reached by more walks than the first one; after an odd number this fails.", "quantifier": "all closed lattices of any extents, all pairs of sites, all numbers of hops", "why_tests_cant": "There are exponentially many walks; the formula joins the neighbour table, the vectors and the momenta, which a test can compare only for small lattices and few hops, in rounded arithmetic.", "anchors": ["include/bwsl/Lattice.hpp:GetNeighbors", "include/bwsl/Lattice.hpp:GetMomentum", "include/bwsl/Lattice.hpp:GetVector", "include/bwsl/Bravais.hpp:GetRealSpace"]}
{"id": "C123", "title": "Walks over the neighbour lists spread evenly over the lattice in the long run", "statement": "On closed chain, square and cubic lattices with odd extents, and on triangular ones with any extents, the fraction of the gamma^n walks of n hops along GetNeighbors that lead from a to b tends to one over the number of sites as n grows, for all sites a and b. On a ring of four sites it does not: no walk with an odd number of hops returns.", "quantifier": "all odd extents (any extents for triangular lattices), all pairs of sites; the limit over all numbers of hops", "why_tests_cant": "It is a limit, and a statement about exponentially many walks; finite runs of a walker only suggest it.", "anchors": ["include/bwsl/Lattice.hpp:GetNeighbors", "include/bwsl/Lattice.hpp:GetMomentum", "include/bwsl/Bravais.hpp:GetNeighbor"]}
{"id": "C124", "title": "Structure factors determine the energy of the bonds and the correlations along walks", "statement": "Where the momenta are dual to the vectors, sum what AccumulateSk adds for occupations s over all momenta, weighted with e(k)^n, e(k) being the sum of cos(k.d) over the hops d. The result is the multiplier over the number of sites times the sum of s_a s_b over all walks of n hops along GetNeighbors, from a to b. For n = 1 that is twice the sum of s_a s_b over the bonds, so the energy of the bonds can be read off the accumulated structure factor; n = 0 is the sum rule.", "quantifier": "all closed lattices with dual momenta, all occupations (any real numbers), all multipliers and previous contents, all numbers of hops", "why_tests_cant": "It joins neighbour table, vectors, momenta and structure factor for every configuration and lattice; tests compare single configurations in rounded arithmetic.", "anchors": ["include/bwsl/Lattice.hpp:AccumulateSk", "include/bwsl/Lattice.hpp:GetNeighbors", "include/bwsl/Lattice.hpp:GetMomentum"]}
{"id": "C125", "title": "Energies of bonds are bounded, and triangular lattices are frustrated", "statement": "For values s between -1 and 1 on the sites of a closed lattice, the sum of s_a s_b over the bonds of GetNeighbors is at most gamma/2 per site in absolute value, gamma being the number of hops. Equal values attain the upper bound; on chains, square and cubic lattices of even extents, opposite values on the two sublattices attain the lower one. On a triangular lattice the sum is between -1 and 3 per site, so at most a third of the bonds' energy can be gained; stripes along the second direction attain -1 if the first extent is even.", "quantifier": "all closed lattices, extents one and two included (hops that lead to the same site count as separate bonds), all configurations of real values in [-1, 1]", "why_tests_cant": "It is a bound over all configurations: already Ising configurations are exponentially many, and the values are real.", "anchors": ["include/bwsl/Lattice.hpp:GetNeighbors", "include/bwsl/Bravais.hpp:TriangularLattice", "include/bwsl/HyperCubicGrid.hpp:GetCoordinates"]}
{"id": "C126", "title": "Ferromagnets and antiferromagnets are equivalent on bipartite lattices", "statement": "On chains, square and cubic lattices that are open, or closed with even extents, changing the sign of the values on the sites with odd sums of coordinates changes the sign of the sum of s_a s_b over the bonds of GetNeighbors. Hence the sum of any function of the energy over all configurations of plus and minus one is the same for the negative energy: partition functions and all thermal averages of energies are the same for both signs of the coupling.", "quantifier": "all chains, square and cubic lattices, open or closed with even extents; all real configurations, all functions of the energy", "why_tests_cant": "It is about all configurations (exponentially many, or real values) on lattices of every size.", "anchors": ["include/bwsl/Lattice.hpp:GetNeighbors", "include/bwsl/HyperCubicGrid.hpp:GetCoordinates"]}
{"id": "C127", "title": "The Ising model on the bonds of a chain has its exact partition function", "statement": "Sum exp(K E) over all 2^n configurations of plus and minus one on a closed chain of n sites, E being the sum of s_a s_b over the bonds of GetNeighbors. The result is (2 cosh K)^n + (2 sinh K)^n, the textbook result for a ring, for every n and every coupling; also for n = 1 and n = 2, where hops lead back to the same site or twice to the other. On an open chain the result is 2 (2 cosh K)^(n-1).", "quantifier": "all chains, closed or open, all real couplings", "why_tests_cant": "A sum over exponentially many configurations, for all sizes and all real couplings.", "anchors": ["include/bwsl/Lattice.hpp:GetNeighbors", "include/bwsl/Bravais.hpp:ChainLattice"]}
{"id": "C128", "title": "Correlations of the Ising model on an open chain decay as a power of tanh", "statement": "On an open chain, sum s_a s_b exp(K E) over all configurations of plus and minus one, E being the sum of s_i s_j over the bonds of GetNeighbors. The result is tanh(K)^|a-b| times the partition function, so the thermal average of s_a s_b is exactly tanh(K)^|a-b|, wherever the two sites lie and however long the chain is.", "quantifier": "all open chains, all pairs of sites, all real couplings", "why_tests_cant": "A sum over exponentially many configurations, for all sizes, distances and real couplings.", "anchors": ["include/bwsl/Lattice.hpp:GetNeighbors", "include/bwsl/Bravais.hpp:ChainLattice"]}
