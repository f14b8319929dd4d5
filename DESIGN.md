# Design of the Rocq model of DifferentiableRaytracing

## 1. What is modelled and how

The C++ library is a set of templates over a scalar type `Real`.  The model keeps
that shape: every function of the library is transcribed once, as a total Gallina
function over a record `NumOps` of scalar operations (`theories/Num.v`), and the
transcription is then instantiated twice.

* `XR L` (`theories/XR.v`): *exact arithmetic with IEEE special values*.  A scalar is
  a real number, `+inf`, `-inf` or `NaN`.  Finite arithmetic is exact; comparisons
  with NaN are false, `x/0 = ±inf`, `0/0 = NaN`, `0*inf = NaN`, `inf-inf = NaN`,
  `sqrt` of a negative number is NaN; `sin`, `cos` of a non-finite number and `tan` at a
  pole are NaN.  `L` carries `numeric_limits::epsilon()` and
  `numeric_limits::min()` as arbitrary positive reals.  Used for geometric
  and algebraic correctness.  There is one zero (no signed zero).
* `FL` (`theories/FL.v`): *IEEE-754 binary floating point* of arbitrary precision and
  exponent range (Flocq's `BinarySingleNaN`), round to nearest even, signed zeros,
  infinities, one NaN.  `libm` functions that IEEE does not fix (sin, cos, exp, ...)
  are an arbitrary parameter.  Used for properties about rounding, ranges,
  termination and special values.

Undefined behaviour is an explicit outcome: `outcome A = Ok a | Undef | OutOfFuel`.
Uninitialised storage is `None` in a cell, reading it is `Undef`; converting NaN or an
out-of-range number to an integer is `Undef`; `std::sort` on data with NaN is `Undef`;
`vector::back()` on an empty vector is `Undef`.
Loops without a static bound take fuel, and `OutOfFuel` is a separate value which the
theorems exclude or (for non-termination claims) prove for every amount of fuel.

Random number sources are explicit: the PCG generator is modelled bit for bit and
threaded; `std::mt19937_64`-based draws are arbitrary inputs.

Not modelled: output to streams (except the progress bar), PNG encoding (lodepng),
timing, memory allocation failure, `-ffast-math` re-association / FMA contraction,
promotion of `float` to `double` in mixed expressions, thread-level memory model
(data races are modelled as interleavings of atomic steps).

Directories: `theories/Num.v XR.v FL.v` scalars; `theories/M_*.v` the model, one file
per header (group); `theories/Spec.v` the small independent specification over plain
reals; `theories/P_*.v` proofs; `theories/T_*.v` the property theorems and nothing
else, each followed by `Print Assumptions`, with `Example`s showing hypotheses are met
in the matching `P_*`/`E_*` file.

A property that the code violates is answered by a theorem `..._refuted` (an explicit
counterexample in the model) and one or more `..._partial` theorems for the part that
does hold.

## 2. Plan per property

| Id | Model | Proof |
|----|-------|-------|
| C01 | vec.hpp over XR | algebra over R (`nsatz`/`nra`) |
| C02 | matrix inverse over XR | `field` on cofactor formulas |
| C03 | solve (2x2) over XR | case split on thresholds, `field` |
| C04 | solve (3x3) with cells `option num` | refuted by the identity matrix (reads uninitialised cells); partial: correct on the generic zero pattern |
| C05 | index functions and product loops over `nat` dims | injectivity of mixed-radix indexing, induction on dims; tensor contraction refuted for rows<>cols, proved for rows=cols |
| C06 | quadratic_roots over XR | case analysis, factorisation identity |
| C07 | quadratic_roots over FL | case analysis on Flocq comparison |
| C08 | first_quadratic_root_in_range over XR | from C06 |
| C09 | cubic_roots over XR | triple-angle identity, cbrt; refuted at double roots, partial elsewhere |
| C10 | quartic_roots over XR | resolvent factorisation, from C09 |
| C11 | quartic_roots | refuted in the e=0 branch, partial elsewhere |
| C12,C13 | bisect with fuel | refuted (never moves the right end); partial: range of results; termination by Archimedes in XR, non-termination in FL |
| C14,C15 | scalar newton/halley | loop invariants over all functions |
| C16,C17 | vector newton/halley | loop invariants over all functions, oracles for random points |
| C18 | ko_method | loop invariant |
| C19-C24 | hit functions over XR | from root theorems; cylinder, rectangles refuted in corner cases |
| C25,C26 | helicoid, enneper | run-time residual check as postcondition; shallow rays by C90; refuted: vertical rays ignore the window, enneper reads uninitialised storage |
| C27 | set_face_normal | algebra |
| C28 | get_uv, sigma | atan2/acos/asin over R |
| C29,C30 | J, H | `derivable_pt_lim` / Coquelicot `is_derive`; helicoid Hessian refuted |
| C31,C32,C33 | fundamental forms, curvature | against derivatives of sigma; helicoid refuted |
| C34 | bounding boxes | inequalities; disk refuted |
| C35,C36 | aabb::hit | slab interval invariant with NaN/inf; closed version refuted |
| C37 | surrounding_box | order theory |
| C38-C40 | hittable_list::hit | induction over the object list with an abstract hit contract; C40 refuted |
| C41,C42 | bvh build with oracle axes, hit | induction on span; refuted for empty lists and for objects that scribble on the record |
| C43 | constant_medium::hit | case analysis |
| C44,C45 | lambertian | PCG full period gives termination; for floats of 24 bits the mean over all states leaves no room for rounding, so the mean is taken over the states with given low 28 bits, where bit 27 shifts it by 2^-20 |
| C46,C47 | pcg | induction on k modulo 2^k (Hull-Dobell); float rounding refuted |
| C48,C49 | bounds | Flocq rounding monotonicity; overloads refuted |
| C50-C56, C77, C78 | interval | Flocq directed rounding; *,/,pow,hull refuted in part |
| C57-C60 | materials, ray_color | algebra; induction on depth |
| C61 | camera | algebra |
| C62,C63 | render loops as permutations / interleavings of tasks | index bijection; shared generator refuted |
| C64-C67 | png, colour maps, cost map | Flocq; tables generated from the header and checked by computation |
| C68 | progress bar | floor arithmetic |
| C69,C70 | newton_fractal | algebra; NaN absorption; contraction near the roots (Coquelicot's complex numbers) |
| C71 | helicoid::hit over XR | refuted by a ray along the axis: the matrix of the residual test is singular |
| C72 | pcg output over all states | the output is a permutation of the state followed by dropping bits |
| C73,C74 | ray_color | induction on depth |
| C75,C76 | isotropic, checker | algebra, sine |
| C79 | render_scene, sample coordinates | algebra; refuted in the last column and row |
| C80 | newton_fractal, colour of a root | atan2 over R |
| C81 | render_scene of an empty scene | induction on samples, then the frame theorems |
| C82 | list_bounding_box | induction on the list over C37 |
| C83 | sphere/torus area, volume | sweep of the unit square/cube, antiderivatives (Coquelicot `is_RInt`) |
| C84 | linear_scalar, log_scalar | C32 plus monotonicity; 0/0 for equal axes |
| C85 | bounds center, volume, empty | induction over the coordinates; rounding is monotone, 2a is representable |
| C86 | interval width, degenerate, empty | differences of floats never round to zero |
| C87 | helicoid condition number, gradients | inverse3 correct (C05), Jacobian columns are the derivatives |
| C88 | world_hit, scatter, render_scene | invariant: rays not too short, stored normals within tol of unit; fuel by induction over samples and pixels |
| C89 | same, one sphere | outward scattered rays never meet the sphere again, inward ones always do |
| C90 | newton_nd, plane and space | every accepted point is a convex combination of points of the hull of box and start; refuted outside and for tiny pivots |
| C91 | render_scene, cost picture | a loop of pixel writes over any image; range of the times |
| C92 | newton_fractal, functions | partial derivatives; factorisation, de Moivre |
| C93 | newton_fractal, main | pixel writes, then disks; NaN absorption for the middle pixel |
| C94 | complex_newton | induction on the steps with explicit real and imaginary parts |
| C95 | complex_halley | exact error formula on a half line, contraction near the roots; refuted at 0 |
| C96 | helicoid::hit | the closed forms for vertical and horizontal rays; a slanted ray that misses, by the box of Newton's method (C90) |
| C97 | helicoid::ubounds, vbounds | a linear and a convex function on an interval; refuted for v |
| C98 | camera::backlight with disk::hit | the ray meets the plane of the lamp behind the eye |
| C99 | camera with render_scene | the frame of C61, divisors width-1 and height-1; refuted |
| C100 | render_spheres.cpp, random_scene | induction on the cells; two overlaps |
| C101 | render_spheres, with_lights, disk, ellipsoid_curvature | the programs as instances of C88 |
| C102 | ellipsoid_curvature.cpp | decimal strings; tan x > x for the angle of view |
| C103 | enneper.cpp | C26 for the ray of the middle pixel; every pixel before it ends |
| C104 | cylinder.cpp | paths have length two: C23 for the camera ray, convexity for the second; tan 20° irrational squared excludes tangent rays; generic lemma on totals of samples (`P_Shades.v`) |
| C105 | whole scenes with media | a medium's draw is settled before each test (`M_Fog.v`), so its object is a hittable; both ends of the chord are found by C23/C27-like lemmas in the strong form `finds`; then as C88 |
| C106 | ellipsoid.cpp | C105 with a set of colours closed under the tints; the lamp by the camera frame and tan 20° < 0.364 |
| C107 | complex_newton | logarithmic derivative: a root is within eight steps; the test bounds the step |
| C108 | complex_halley | as C107 with five roots; refuted by the intermediate value theorem next to a pole |
| C109 | newton_fractal, colour of a root | angle of a number near a root; both ends of the map next to the root 1 |
| C110 | difference_of_products, cross, discriminant (floats) | no error term is lost: either ab - w is itself a float, or subtracting the error of w does not cancel more than half of it |
| C111 | quadratic_roots, first_quadratic_root_in_range (floats) | relative errors through the square root, the sum without cancellation and the two quotients; sorting keeps errors |
| C112 | dot, squared_norm, norm, normalize (floats) | products of three rounding factors; all intermediate values on a grid, hence no underflow |
| C113 | sphere hit (floats) | backward error of the coefficients, C111 for the root, residual of the exact quadratic at the computed root, rounding of ray_at and of the normal |
| C114 | aabb hit (floats) | each slab end is within 4u of the exact one; 1/0 is an infinity, whose products with exact signs decide the axis exactly; comparisons with the window via their values |
| C115 | helicoid.cpp | tan² 20° bounds put the rays of the outer columns outside the cylinder x²+y² = 1, which contains the helicoid; the lamps lie behind the camera or parallel to the view outside its cone |
| C116 | hittable_list::hit (floats) | each object's report as a function of the window's end does not change while the end stays after it; induction over the loop with the order of floats read off their values |
| C117 | bvh (floats) | surrounding boxes are exact (fmin, fmax), so each box on the way to an object contains its own; C114 lets the ray into each; induction over the tree with the shrinking window |
| C118 | sphere and scattering | exact: the polynomial a t^2 + b t with a, b >= 0 has no root above 0; floats: sharp bounds for the coefficients and the hit point, the residual at the window's start has the sign of the leaving speed; single precision by computing the scene's corner sphere |
| C119 | enneper, helicoid | derivatives of the residual by Coquelicot's auto_derive, compared entry by entry |
| C120 | bvh comparator | `<` on extended reals without NaN is a strict weak ordering; floats through their value |
| C121 | render_scene, ray_color, materials, programs in floats | colours depend on textures only: n 2^e is representable, so rounding keeps sums and products below it; objects always answer; the sampler terminates (C45) |
| C122 | enneper_pick | the scan keeps the least t so far; `<` is transitive and irreflexive, NaN included |
| C123 | xy_hit, xz_hit, yz_hit, lambertian_scatter, metal_scatter in floats | relative errors of the difference, quotient, product and sum bound the distance from the plane; the next t is at most that over b', below 1000 epsilon; a hemisphere vector has across-component at least 1 after rounding |
| C124 | metal_scatter, dielectric_scatter in floats | absolute errors of each operation on numbers below 64; the length of a refracted direction is 1 because the square root is squared again, so no amplification near the critical angle |
| C125 | sphere_hit followed by metal_scatter or dielectric_scatter in floats | C113 and C124 composed: replacing the computed normal by the exact radial direction moves mirrored and tangential parts by a bounded amount; the computed side is right off grazing |
| C126 | pixel_u, pixel_v, get_ray, pcg_real_01 in floats | absolute errors scaled by the largest coordinate; the order of samples from the monotonicity of rounding |
| C127 | make_camera, normalize, cross, get_ray in floats | absolute errors axis by axis: a vector moved by a small part of its length turns little; then C126 |
| C128 | ellipsoid_hit, first_quadratic_root_in_range, ray_at in floats | the divided ray is moderate for a larger k and has small relative errors; then the root analysis behind C113 for the unit sphere |
| C129 | ellipsoid_hit, norm, vdiv, set_face_normal in floats | gradient components with relative errors and an underflow term, one of them large; normalising at any moderate length |

## 3. Trusted base

* Coq 8.16.1's kernel (with its `vm_compute` reduction, used for closed floating-point
  terms) and the standard library.
* Axioms.  Every theorem in a `T_*.v` file is followed by `Print Assumptions`.  The only
  axioms that appear are those of the standard library's classical reals:
  `ClassicalDedekindReals.sig_not_dec`, `ClassicalDedekindReals.sig_forall_dec`,
  `FunctionalExtensionality.functional_extensionality_dep` and `Classical_Prop.classic`.
  Some theorems use fewer or none.
* The transcription of the C++ text into `M_*.v`, cited definition by definition.
* The reading of the C++ semantics stated in section 1: what is undefined, exact or
  IEEE arithmetic, evaluation order as written.

* `scripts/tables.py`, which writes the numbers of `color_maps.hpp` into `M_Tables.v` as
  exact dyadic rationals (the doubles the literals denote).

Modelled: vec, matrix, tensor, roots, math, newton, halley, bisection, the shape headers
(sphere, ellipsoid, disk, cylinder, torus, rectangles, helicoid, enneper), aabb, hittable,
hittable_list, bvh, pcg, bounds, interval, the materials and textures, ray_color,
constant_medium, the five materials behind one dispatch (`M_World.v`), camera, to_8bit_rgba of png, color_maps, progress_bar, render_scene (loops,
samples, frame buffer, cost map and its picture and file name), and all of `src/newton_fractal.cpp`
(std::pow of a complex number is a parameter, the size of the picture too); the scalars of the curvature plots
(`torus_curvature`, `ellipsoid_curvature`, `helicoid`, `enneper`); the scenes, cameras, sizes and file names
of `render_spheres`, `with_lights`, `disk`, `ellipsoid_curvature`, `enneper`, `torus_curvature`, `helicoid` and `cylinder`
(`M_Programs.v`; the lambda textures are parameters, the draws of the distribution inputs) and of `ellipsoid` (`M_Fog.v`).

Not modelled: lodepng, stream output, time measurement (the times of the cost
map are inputs), overflow of the int64_t pixel offsets, the scene of
`final_scene.cxx` (which the build does not compile), the unused function
`helicoid_condition` of `helicoid.cpp`,
the tests.
`box.hpp` is not modelled because `box<Real>` cannot be instantiated: its constructor calls
`hittable_list::add` with one argument where two are required, and returns a `shared_ptr`
where a `bool` is expected.
Threads: an OpenMP execution is an order of the pixels (or of the byte stores).  In C++ the
unsynchronised update of the shared generator is a data race and therefore undefined; the
model shows that even a benign, atomic reading of it makes the image depend on the schedule.
