{
 "C01": "Exact arithmetic, all real vectors.",
 "C02": "Exact arithmetic; both outcomes of the determinant test. The by-value overload returns uninitialised storage on failure.",
 "C03": "Exact arithmetic; the entry compared with eps^2 must be 0 or above the threshold. Below the threshold the result is wrong (refuted).",
 "C04": "The full statement is false: the identity matrix makes the code read uninitialised cells. Proved: an exact characterisation (iff) of the invertible matrices that are solved.",
 "C05": "Indexing, products and columns for all dimensions. Contraction proved for square panels, refuted for rows < cols.",
 "C06": "Exact arithmetic, coefficients 0 or above numeric_limits::min(). The zero polynomial is excluded and separately shown to give NaNs.",
 "C07": "All IEEE inputs, any precision, any libm.",
 "C08": "Exact arithmetic, infinite and NaN window ends allowed.",
 "C09": "Complete exactly for cubics without a root of multiplicity two (iff); soundness and order always.",
 "C10": "Complete exactly off the quartics that reduce to a cubic with a double root (iff), where a root is missed (refuted); soundness always.",
 "C11": "Sorted except when the constant term is treated as zero; in exact and in IEEE arithmetic. Refuted by x^4 - x^3.",
 "C12": "Refuted twice: line 305 tests f_min*f_min<0, which is never true, so the pair returned is the right end of the cell and need not contain the sign change; and the scan can step past tmax. Partial: exact description of the cell the answer comes from.",
 "C13": "Refuted for tmax=infinity in exact arithmetic and on [0,2^60] in double precision (tmin += dt no longer changes tmin). Partial: terminates on every finite window in exact arithmetic.",
 "C14": "Exact arithmetic, finite windows. The fallback is the midpoint of whatever bisect returns. The number of evaluations outside bisection is at most 35.",
 "C15": "Refuted: after falling back to bisection at a critical point the code goes on with the square root of a negative number (or a division by zero) and answers NaN. Partial: functions without critical points.",
 "C16": "Refuted: `continue` after a random restart compares the new residual with the old tolerance. Partial: small residual or a point drawn by random(). Full for unbounded boxes. Exact arithmetic, results with real coordinates.",
 "C17": "Exact arithmetic. The function is assumed NaN away from real vectors (C17_halley_nd), or the result to have real coordinates (C17_halley_nd_real). The generator state counts the randomisations.",
 "C18": "Exact arithmetic, arbitrary surface (also infinite or NaN values), nonzero direction, numeric_limits::min() < eps^2 (true of float and double). No undefined behaviour, at most 50 iterations; the distance to the ray is below 2 eps/|d|.",
 "C19": "Exact arithmetic; quadratic coefficients zero or above numeric_limits::min(); window ends possibly infinite, not NaN. Also gives the whole record: point, normal, parameters, gradient, fundamental forms.",
 "C20": "As C19.",
 "C21": "Rays parallel to the plane count as misses.",
 "C22": "Every ray except those lying in the rectangle's plane; those are reported at NaN (refuted). The records hold u,v in [0,1] with sigma(u,v)=p.",
 "C23": "Exact if all crossings of the infinite cylinder are after t_min. Otherwise a real hit can be missed or a stale record reported (refuted).",
 "C24": "Every report is correct; complete for all rays whose quartic is not degenerate. A degenerate tangent ray is missed (refuted); windows with t_min<=0 too.",
 "C25": "Every hit is on the surface up to the tolerance of the code, with u,v in range; window proved for horizontal rays, refuted for vertical ones, open for the rest. C25_window_shallow_partial: rays whose slope keeps newton's pivot above eps^2 are found inside the window, or the window misses the solid cylinder.",
 "C26": "Initialised-storage part refuted: every ray meeting the clipping sphere is undefined, in exact arithmetic and in both float formats. The rest proved for any solver in place of the broken one.",
 "C27": "Includes: which side front_face names; stored normal orthogonal to both partial derivatives of the parametrisation. Helicoid complete, Enneper for any solver in place of the undefined one.",
 "C28": "get_uv and operator() for sphere, ellipsoid, cylinder, torus; a disk computes u,v in hit (C21).",
 "C29": "Sphere, helicoid, Enneper.",
 "C30": "Sphere, Enneper; helicoid mixed derivative lacks the factor radius (refuted).",
 "C31": "Sphere, ellipsoid, torus, cylinder, Enneper; disk refuted (e,f are NaN), helicoid refuted (G is 4 pi^2 too large).",
 "C32": "Sphere, cylinder, torus, ellipsoid off the poles, with the bounds attained; at the pole of a sphere the value is NaN (refuted). Helicoid refuted (off by 4 pi^2), Enneper proved.",
 "C33": "Exact arithmetic, off the quadratic threshold.",
 "C34": "Sphere, ellipsoid, cylinder, torus, rectangles, helicoid, Enneper; disk refuted.",
 "C35": "Exact arithmetic; boxes with any corners, zero direction components and infinite window ends included.",
 "C36": "False for flat boxes and grazing rays (refuted); proved when the ray has two points in the box.",
 "C37": "In exact and in IEEE arithmetic, and as point sets.",
 "C38": "For objects obeying the hit contract (C19-C24 prove it for shapes).",
 "C39": "As C38.",
 "C40": "False: a rectangle's record keeps a sphere's gradient (refuted). Holds when each object writes every field.",
 "C41": "For objects that do not write on a miss, hits not exactly at the window ends; instantiated to all scenes of spheres. A torus destroys the record (refuted).",
 "C42": "All non-empty lists; the empty list recurses for ever (refuted).",
 "C43": "Exact arithmetic. Full characterisation for a draw in (0,1), the draw 0, and Beer's law.",
 "C44": "Exact arithmetic, every unit normal, state and increment; includes termination of the sampler. Component along the normal is at least 1.",
 "C45": "Every state and every increment, in exact arithmetic, in double precision (coordinates exact) and in every binary format of at least 24 bits, which includes float and long double: the loop ends with the first triple whose squared norm, as computed, is at most 1. C45_margin: some triple has squared norm below 1 - 2^-20 whatever the increment.",
 "C46": "All 2^64 states in one cycle, for every increment (even ones are made odd by the code).",
 "C47": "Proved in double, where the draw is exact. Refuted in float: 1.0f is returned from some state reachable from every state.",
 "C48": "Double: contained if and only if no width overflows. Float: same provided no draw is rounded to 1; refuted otherwise. Exact arithmetic proved.",
 "C49": "contains(vec) right for all non-NaN floats of any format; NaN is accepted (refuted); the overloads with separate coordinates are wrong (refuted) unless x and y lie on the same side of the second upper end.",
 "C50": "Sums and differences contain the exact result in every format and mode, with the best ends and the mode restored; -= too unless an interval is subtracted from itself, which is refuted.",
 "C51": "Exact arithmetic except [0,0] times the whole line (refuted). With rounding the product rounded in the ambient mode is contained; the exact product is refuted in every mode.",
 "C52": "Exact arithmetic for positive points of the divisor and for negative divisors; refuted for divisors straddling 0 and with rounding.",
 "C53": "Exact arithmetic unless the exponent is even and the interval reaches further below 0 than above, which is refuted.",
 "C54": "Intersection exact in every format; hull refuted (it takes the smaller upper end) except for equal upper ends; empty() refuted for disjoint intersections.",
 "C55": "sqrt in every format; exp and log in exact arithmetic, and in every format for a libm that honours the rounding direction.",
 "C56": "Exact arithmetic, finite ends.",
 "C57": "Exact arithmetic.",
 "C58": "Exact arithmetic; the draw is an input.",
 "C59": "Exact arithmetic; pow(x,5) is the repeated product.",
 "C60": "Exact arithmetic. The scene, materials and generators are arbitrary functions on an arbitrary state.",
 "C61": "Exact arithmetic; lookfrom <> lookat, view_up not parallel to the view, 0 < vfov < 180.",
 "C62": "Store level: any order of the byte stores. Pixel level: any order of the pixels. int64 overflow of the offset is not modelled.",
 "C63": "Refuted: the shared generator hands different draws to the pixels. Proved: all orders consume the same number of draws. (In C++ the unsynchronised generator is moreover a data race.)",
 "C64": "Every format with at least 8 bits of precision; the closed form in exact arithmetic.",
 "C65": "Every format with at least 8 bits of precision and emax >= 128; NaN is undefined behaviour.",
 "C66": "Exact arithmetic; the range also in every format (C65_in_bounds).",
 "C67": "Refuted when all times are equal (0/0). Proved otherwise, in every format.",
 "C68": "Exact arithmetic in full. In floating point 100 cells always; the number of filled cells is floor of the rounded product, which can exceed floor(100p).",
 "C69": "Exact arithmetic. The disks stay inside for images of at least 46 x 46 and not at 45 x 45.",
 "C70": "Refuted at the origin (0/0 for ever). Proved in exact arithmetic: the loop ends if and only if an iterate of Newton's map comes within 2/25 of a root (k epsilon <= 1/250), in particular in these disks, on the axes and on the outer diagonals. Missing: that almost every starting value gets there.",
 "C71": "Refuted by a ray along the axis. The failures are characterised exactly: the answer is undefined iff the solver returns real numbers where the ray is tangent to the surface; the 2x2 newton inside never fails.",
 "C72": "Bit-exact model.",
 "C73": "Exact arithmetic.",
 "C74": "Exact arithmetic.",
 "C75": "Exact arithmetic; the Gaussian draws are inputs.",
 "C76": "Exact arithmetic.",
 "C77": "Every format.",
 "C78": "Every format.",
 "C79": "Refuted: the last column and row reach beyond 1, and one column divides by zero. The cells are as claimed otherwise.",
 "C80": "Exact arithmetic.",
 "C81": "Exact arithmetic.",
 "C82": "Exact arithmetic and every format; members' boxes without NaN.",
 "C83": "Exact arithmetic. The surface and the solid are swept once by an explicit parametrisation; area and volume are iterated Riemann integrals of its area and volume element.",
 "C84": "Refuted for round ellipsoids (0/0). Proved for the torus and the ellipsoid away from its poles under the threshold conditions of C23/C24, for the helicoid in full, for the Enneper patch without the hit (which is always undefined, C26).",
 "C85": "Centre: in full, in exact arithmetic and with rounding in any format, with the exact condition for overflow (refuted beyond it). Volume in exact arithmetic. Emptiness for ordered ends in exact arithmetic; refuted for reversed pairs and for underflow.",
 "C86": "Sign, zero, degenerate and empty for every format and mode, finite ends. The lower bound by members holds under upward rounding only: width() leaves the mode alone, and under the default mode it is refuted. The default interval (NaN ends) has no members but is not reported empty.",
 "C87": "Helicoid in full (exact arithmetic, directions not shorter than the smallest normal number). Enneper for any solver, since the shipped one is always undefined (C26); its condition_number is not set by the code.",
 "C88": "Exact arithmetic. The rejection loop of the PCG sphere sampler always ends (C45), hence one fuel suffices for the whole picture. The mt19937 draws are arbitrary reals, the normal triples not all zero.",
 "C89": "Exact arithmetic. Refuted for tangent rays: their stored normal points inwards, so the light is trapped and the result is black. Proved for all other rays off the root finder's threshold and without a meeting nearer than 1000 epsilon.",
 "C90": "False in full: a start outside that solves the system is returned (C90_outside_refuted), and a Jacobian entry of size at most eps^2, which solve ignores, lets the line search leave the box (C90_step_refuted, a cubic map with its true Jacobian). C90_plane_partial: in two variables with real ends and a lower-left entry that is 0 or above eps^2 in size, the result stays in the hull of box and start. C90_space_partial: in three variables, the only other size solve handles, with real ends and Jacobians that solve eliminates (C04), the call always ends and its result stays in the hull. Missing: infinite ends; in space, Jacobians on which the elimination divides by zero.",
 "C91": "Every binary format with at least 8 bits; the two end colours in double. Times are inputs (non-negative, not all equal; equal times are undefined, C67). The scalar is computed in the type of the times.",
 "C92": "Exact arithmetic. std::pow of a complex number is any function that returns the repeated product.",
 "C93": "Exact arithmetic; sizes from 46, below which a disk leaves the image (C69). That the iteration ends at every pixel of the 4096 x 4096 picture is not proved (C70).",
 "C94": "Exact arithmetic, all finite starting values, including those at which the iteration does not end.",
 "C95": "False at 0 (0/0 forever). Proved within 1/6 of a root and on the five half lines through the roots, in exact arithmetic. Missing: all other starting values.",
 "C96": "False: C96_slanted_refuted gives a crossing in front of the camera that hit does not report, because vbounds cuts it off. Proved, in exact arithmetic, for vertical rays at least min*radius from the axis and for horizontal rays not along a ruling and not crossing on the y axis; vertical rays outside the radius are misses. Missing: which slanted rays are found.",
 "C97": "u: full, in exact arithmetic. v: false (C97_v_refuted); C97_v_partial says exactly when the bounds are right: the two ends of the window must be equally far from the axis, or both outside the radius. ubounds is not called in the library.",
 "C98": "Exact reals. The ray meets the lamp's plane at parameter -|from-at|, so every window that starts at 0 or later misses it.",
 "C99": "Exact condition: aspect*(height-1) = width-1. With aspect = width/height this holds only for square pictures (the divisors are width-1 and height-1), so with_lights and the other 1.6 pictures have pixels higher than wide; ellipsoid.cpp, with aspect 1 for 2880x1800, more than 1.6 times.",
 "C100": "Proved for all draws except the last clause, which is refuted twice: two small balls may overlap (centres 0.2 apart), and a small ball may overlap the big glass one. Centres are always more than 1/10 apart. The two draws of the centre come in an unspecified order; the streams are arbitrary, so both orders are covered. The cull keeps balls off the metal one only.",
 "C101": "Exact reals with l_min < 1/1000. Lambda textures are arbitrary functions with real non-negative values at real points. Fuel is for the rejection loop of random_unit_vector only.",
 "C102": "Exact reals for the geometry; the file names are strings, with std::to_string as the decimal representation of the standard library.",
 "C103": "Refuted for every schedule, state, fuel and texture: the ray of the middle pixel meets the clipping sphere, and enneper::hit then reads uninitialised values (C26); no earlier pixel can prevent it. The lamp is not hit (C98).",
 "C104": "Exact arithmetic, every schedule and every good state; the generator's draws are its multiples of 2^-32 (a tangent ray would need tan^2 20 degrees to be rational, which it is not). Floating point is not covered.",
 "C105": "Exact arithmetic. Uniform draws in [0,1]; a medium must fill a sphere or an ellipsoid and have an isotropic material. The media's draws come from inputs, one per test.",
 "C106": "Exact arithmetic; uniform draws in [0,1]. C106_lamp is for the rays of the renderer (pixel plus a multiple of 2^-32).",
 "C107": "Exact arithmetic. The sum of 1/(z - p) over the roots is g'/g, so some root is within eight steps.",
 "C108": "False next to a pole of the iteration: a step to a number beyond 3/epsilon passes the stopping test and is returned. Proved: the result is within 4 epsilon |z| of a fifth root or larger than 1/(20 epsilon). Exact arithmetic; std::pow is any function that computes powers and keeps NaN.",
 "C109": "False at the root 1: the sign of the tiny imaginary part decides between the two ends of the colour map. Proved: the scalar is within 3 k epsilon of j/8, 0 <= j <= 8, where j is the direction of the root (0 and 8 for the root 1). Exact arithmetic.",
 "C110": "Rounded arithmetic (Flocq), all formats. No underflow or overflow can occur for inputs of moderate size, which is a hypothesis.",
 "C111": "Rounded arithmetic (Flocq), all formats. The sizes of the coefficients are bounded: without the bound the discriminant overflows and -inf and -0 are returned (refuted). The branch for a = 0 is covered in exact arithmetic only (C06).",
 "C112": "Rounded arithmetic (Flocq), all formats. Inputs of moderate size, which excludes underflow and overflow.",
 "C113": "Rounded arithmetic (Flocq), all formats with at least 24 bits; libm is not used by the parts stated. The converse (C113_found) asks for a margin: grazing rays may go either way. binary32 meets 4k + 6 prec + 16 <= emax for no k, so the theorem is about double and wider formats.",
 "C114": "Both directions: no box is culled through which the ray passes for longer than 4u(|t|+|t'|), and an accepted ray comes within the roundoff-enlarged box inside the window. C36 shows that exact arithmetic already culls boxes which the ray only touches, so a positive length is needed.",
 "C115": "Exact arithmetic. The columns in between need the Newton iteration of the helicoid and are not decided; whether the whole program ends normally is not claimed.",
 "C116": "Every format, all values including NaN. Reports exactly at the end of the window are not counted (the list compares strictly). Torus and cylinder are not covered: they write into the shared record when missed.",
 "C117": "The passage through the box is required with C114's margin; C36 shows that grazing hits are culled even in exact arithmetic. Spheres and ellipsoids; flat objects have boxes of their own padding (rectangles) or wrong ones (disk, C34).",
 "C118": "False in full: in single precision, which render_spheres.cpp uses, its corner sphere is hit twice (C118_acne_refuted) and its colour is lost (C118_dark_refuted, float against exact). Proved in exact arithmetic for every scattered ray, and in double and wider formats when the stated error is below the window's start. The float theorems take any second direction; that it leaves the sphere is a hypothesis (rise >= 0). 4k + 6 prec + 16 <= emax excludes binary32.",
 "C119": "Exact arithmetic. The function objects are the lambdas inside compute_uvt and compute_tuv (enneper_system, helicoid_system).",
 "C120": "Exact and floating point. The refutation uses a sphere with infinite centre and radius. Rectangles and cylinders are covered by C120_float but not listed in C120_finite.",
 "C121": "Floating point, libm arbitrary. Tori, helicoids and Enneper surfaces are not among the objects. For ellipsoid_curvature the lamp must be constructible, which depends on libm's sine and cosine. The fuel is for the rejection sampler, whose termination is C45.",
 "C122": "About the selection loop alone: by C26_initialised_refuted the runs before it never complete, because solve reads an unset variable at u = v = 0.",
 "C123": "Floating point, libm arbitrary. t is assumed finite, because a direction with a tiny across-component and zeros elsewhere gives t = infinity, for which the edge checks compare with NaN and pass. Dielectric rectangles, whose rays go through, are not covered.",
 "C124": "Floating point, libm arbitrary. Which of the two directions glass chooses depends on the draw and on the computed reflectance; that choice is proved in exact arithmetic (C58, C59) and not here.",
 "C125": "Composes C113 and C124 with the sign of the computed dot product in set_face_normal. Which of the two directions glass chooses depends on the draw and on the computed reflectance; that choice is proved in exact arithmetic (C58, C59) and not here.",
 "C126": "The vectors of the camera are taken as stored; C127 says how accurately the constructor computes them.",
 "C127": "The tangent is whatever the library returns: H is its value, and no accuracy of tan is assumed.",
 "C128": "C129 covers the stored normal. The (u,v) and curvatures of an ellipsoid hit are not covered in floating point; the exact-arithmetic properties cover them.",
 "C129": "The error is measured against the normal at the stored point, which C128 places near the ellipsoid."
}