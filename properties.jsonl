{"id": "C01", "title": "Reflection law and normalisation", "statement": "normalize(v) turns every non-zero vector into the parallel vector of length 1; reflect(v,n) about a unit n keeps the length of v, negates its component along n, keeps its component orthogonal to n, and applying it twice gives v back; cross(u,v) is orthogonal to both arguments and satisfies Lagrange's identity.", "quantifier": "every real 3-vector (non-zero for normalize, |n|=1 for reflect), exact arithmetic", "why_tests_cant": "the input space is the continuum R^3 x R^3; tests sample a few directions", "anchors": ["include/drt/vec.hpp: normalize, reflect, dot, cross, norm", "include/drt/math.hpp: difference_of_products"]}
{"id": "C02", "title": "Matrix inverse is a two-sided inverse or reports failure", "statement": "inverse(m, m_inv) returns true exactly when |det m| exceeds the smallest normal number; then m*m_inv and m_inv*m are both the identity. When it returns false the output matrix is left untouched.", "quantifier": "every real 2x2 and 3x3 matrix and every prior content of the output argument", "why_tests_cant": "nine continuous parameters; the failing region has measure zero so random tests never visit it", "anchors": ["include/drt/matrix.hpp: inverse, determinant, operator*"]}
{"id": "C03", "title": "2x2 solve returns the solution of Ax=b", "statement": "For a non-singular 2x2 A whose lower-left entry is 0 or larger than eps^2 in magnitude, A.solve(b) returns the unique x with Ax=b.", "quantifier": "every such real matrix and every right-hand side", "why_tests_cant": "six continuous parameters with three code paths selected by thresholds", "anchors": ["include/drt/matrix.hpp: matrix::solve"]}
{"id": "C04", "title": "3x3 solve returns the solution of Ax=b for every non-singular A", "statement": "For every non-singular real 3x3 matrix A and every b, A.solve(b) returns the x with Ax=b, and reads only initialised storage.", "quantifier": "every non-singular real 3x3 matrix, every right-hand side", "why_tests_cant": "the pivot-free elimination has many zero-pattern paths of measure zero; random matrices never take them and uninitialised reads often look plausible", "anchors": ["include/drt/matrix.hpp: matrix::solve"]}
{"id": "C05", "title": "Matrix and tensor products index storage correctly in every dimension", "statement": "(A*B)*v = A*(B*v) for all compatible sizes; every element access (i,j) and (i,j,k) in range maps to a distinct storage cell inside the array; T(x,y)_i = sum_jk T(i,j,k) x_j y_k and stays inside panel i.", "quantifier": "every number of rows, columns, panels; every content", "why_tests_cant": "dimensions are template parameters: infinitely many instantiations", "anchors": ["include/drt/matrix.hpp: operator*, operator()", "include/drt/tensor.hpp: operator()"]}
{"id": "C06", "title": "quadratic_roots returns exactly the real roots, in order", "statement": "In exact arithmetic quadratic_roots(a,b,c) returns either nothing, when ax^2+bx+c has no real root, or two values r0<=r1 with ax^2+bx+c = a(x-r0)(x-r1) (for a=0, b<>0: the linear root twice). Each of a,b is either 0 or above the smallest-normal threshold; a=b=c=0 is excluded.", "quantifier": "every real a,b,c off the threshold", "why_tests_cant": "continuum of coefficients, cancellation and threshold branches", "anchors": ["include/drt/roots.hpp: quadratic_roots, discriminant"]}
{"id": "C07", "title": "quadratic_roots has a stable shape for every floating-point input", "statement": "In IEEE arithmetic, for all inputs including NaN, infinities and subnormals, quadratic_roots returns a vector of 0 or 2 entries and never has entry0 > entry1.", "quantifier": "every triple of floating-point numbers of any binary format", "why_tests_cant": "2^192 inputs; callers index [0] and [1] blindly", "anchors": ["include/drt/roots.hpp: quadratic_roots"]}
{"id": "C08", "title": "first_quadratic_root_in_range returns the smallest root in the window", "statement": "The optional is empty exactly when no real root lies in [tmin,tmax]; otherwise it holds the smallest root in the window.", "quantifier": "every real a,b,c off the threshold and every window (possibly infinite)", "why_tests_cant": "continuum of coefficients and windows", "anchors": ["include/drt/roots.hpp: first_quadratic_root_in_range"]}
{"id": "C09", "title": "cubic_roots returns exactly the real roots, in order", "statement": "In exact arithmetic cubic_roots(a,b,c,d) returns an increasing list containing every real root of the polynomial and nothing else.", "quantifier": "every real coefficient tuple off the threshold", "why_tests_cant": "the double-root locus has measure zero and the trigonometric branch needs a proof, not samples", "anchors": ["include/drt/roots.hpp: cubic_roots"]}
{"id": "C10", "title": "quartic_roots returns exactly the real roots", "statement": "In exact arithmetic quartic_roots(a,b,c,d,e) returns every real root of the polynomial and nothing else.", "quantifier": "every real coefficient tuple off the threshold", "why_tests_cant": "five continuous parameters, nested solver calls", "anchors": ["include/drt/roots.hpp: quartic_roots"]}
{"id": "C11", "title": "quartic_roots returns its roots in increasing order", "statement": "The vector returned by quartic_roots is sorted, as torus::hit relies on to take the first root in range as the nearest.", "quantifier": "every coefficient tuple", "why_tests_cant": "order is a property of every branch including the e=0 branch", "anchors": ["include/drt/roots.hpp: quartic_roots", "include/drt/torus.hpp: hit"]}
{"id": "C12", "title": "bisect returns a bracket of a sign change", "statement": "If bisect(f,tmin,tmax) returns a non-NaN pair (lo,hi), then tmin<=lo<=hi<=tmax and f changes sign (or vanishes) on [lo,hi].", "quantifier": "every continuous f and every window", "why_tests_cant": "ranges over all functions", "anchors": ["include/drt/roots.hpp: bisect"]}
{"id": "C13", "title": "bisect terminates", "statement": "bisect(f,tmin,tmax) terminates for every function and every window.", "quantifier": "every function, every window", "why_tests_cant": "non-termination cannot be observed by a finite test", "anchors": ["include/drt/roots.hpp: bisect"]}
{"id": "C14", "title": "Scalar newton returns only accepted iterates", "statement": "newton(f,tmin,tmax) makes at most 35 evaluations outside bisection and returns either a t with |f(t)| <= eps*|t f'(t)| inside the window, or NaN, or the midpoint produced by its bisection fallback.", "quantifier": "every function returning value and derivative, every window", "why_tests_cant": "ranges over all functions", "anchors": ["include/drt/newton.hpp: newton, bisect_backup"]}
{"id": "C15", "title": "Scalar halley falls back to bisection at a critical point", "statement": "When the first derivative vanishes and the quadratic model has no real solution, halley continues from the bisection result.", "quantifier": "every function, every window", "why_tests_cant": "ranges over all functions; needs an exactly vanishing derivative", "anchors": ["include/drt/halley.hpp: halley"]}
{"id": "C16", "title": "nD newton returns NaN or a point with small residual", "statement": "If the vector returned by newton(f,bound,guess) is not all-NaN then its residual max|f_i| is at most eps*max_i sum_j |J_ij x_j| evaluated at the returned point.", "quantifier": "every function (value, Jacobian), every box, every starting guess, every iteration budget", "why_tests_cant": "ranges over all functions and iteration histories", "anchors": ["include/drt/newton.hpp: newton (vector)"]}
{"id": "C17", "title": "nD halley returns NaN or an in-bounds point with small residual", "statement": "If the vector returned by halley(f,bound,guess) is not all-NaN then it lies in the bounds and its residual max|f_i| is at most eps*max_i sum_j |J_ij x_j| evaluated there; it randomises at most five times and makes at most max_iterations steps.", "quantifier": "every function, every box, every starting guess, every iteration budget", "why_tests_cant": "ranges over all functions and iteration histories", "anchors": ["include/drt/halley.hpp: halley (vector)"]}
{"id": "C18", "title": "ko_method returns NaN or a time inside the bound close to the ray", "statement": "A non-NaN result (u,v,t) of ko_method has t inside the third bound, and the surface point lies on the ray up to the stated tolerance; at most fifty iterations are made.", "quantifier": "every surface, ray, bound and starting parameter", "why_tests_cant": "ranges over all surfaces", "anchors": ["include/drt/ko_method.hpp: ko_method"]}
{"id": "C19", "title": "Sphere intersection is exact", "statement": "sphere::hit returns true exactly when the ray meets the sphere at some t in [t_min,t_max]; then rec.t is the smallest such t, rec.p is the ray point, which lies on the sphere, and on a miss the record is unchanged.", "quantifier": "every centre, positive radius, ray with non-zero direction, window (possibly infinite), prior record; polynomial coefficients zero or above numeric_limits::min(), window ends not NaN", "why_tests_cant": "continuum of rays; tangency and origin-on-surface have measure zero", "anchors": ["include/drt/sphere.hpp: hit"]}
{"id": "C20", "title": "Ellipsoid intersection is exact", "statement": "ellipsoid::hit returns true exactly when the ray meets the ellipsoid in [t_min,t_max]; then rec.t is the smallest such t and rec.p lies on the ellipsoid.", "quantifier": "every centre, positive semi-axes, ray, window, prior record; polynomial coefficients zero or above numeric_limits::min(), window ends not NaN", "why_tests_cant": "continuum of rays and shapes", "anchors": ["include/drt/ellipsoid.hpp: hit"]}
{"id": "C21", "title": "Disk intersection is exact", "statement": "disk::hit returns true exactly when the ray crosses the disk's plane inside the radius at a t in [t_min,t_max]; rec.t and rec.p are that crossing.", "quantifier": "every centre, radius, unit normal, ray, window with non-NaN ends", "why_tests_cant": "continuum of orientations and rays", "anchors": ["include/drt/disk.hpp: hit, disk"]}
{"id": "C22", "title": "Axis-aligned rectangle intersection is exact and never reports NaN", "statement": "xy/xz/yz_rect::hit returns true exactly when the ray crosses the rectangle at a t in [t_min,t_max]; rec.t is that t and u,v are the normalised coordinates in [0,1].", "quantifier": "every rectangle, ray, window", "why_tests_cant": "rays parallel to the plane have measure zero", "anchors": ["include/drt/aarect.hpp: xy_rect::hit, xz_rect::hit, yz_rect::hit"]}
{"id": "C23", "title": "Cylinder intersection is exact", "statement": "cylinder::hit returns true exactly when the ray meets the lateral surface in [t_min,t_max]; rec.t is the smallest such t and rec.p the corresponding point.", "quantifier": "every radius, height range, ray, window, prior record; polynomial coefficients zero or above numeric_limits::min(), window ends not NaN", "why_tests_cant": "needs the first root out of range and the second in range; stale records look plausible", "anchors": ["include/drt/cylinder.hpp: hit"]}
{"id": "C24", "title": "Torus intersection is exact for rays looking forward", "statement": "For t_min>0, torus::hit returns true exactly when the ray meets the torus at a t in [t_min,t_max]; rec.t is the smallest such t and rec.p lies on the torus.", "quantifier": "every centre, radii R>r>0, ray, window; polynomial coefficients zero or above numeric_limits::min(), window ends not NaN", "why_tests_cant": "quartic with tangencies", "anchors": ["include/drt/torus.hpp: hit", "include/drt/roots.hpp: quartic_roots"]}
{"id": "C25", "title": "Helicoid hits are on the surface and inside the window", "statement": "If helicoid::hit returns true then t_min<=rec.t<=t_max, u,v in [0,1], and the ray point agrees with the surface point sigma(u,v) up to the stated tolerance.", "quantifier": "every radius, speed, ray, window", "why_tests_cant": "iterative solver over a continuum of rays", "anchors": ["include/drt/helicoid.hpp: hit, compute_tuv"]}
{"id": "C26", "title": "Enneper hits are on the surface, inside the clipping sphere, and computed from initialised data", "statement": "If enneper::hit returns true the ray point agrees with sigma(u,v) up to the stated tolerance and lies in the clipping sphere, and the computation reads only initialised storage.", "quantifier": "every radius, ray, window", "why_tests_cant": "iterative solver; uninitialised reads are invisible to value-based tests", "anchors": ["include/drt/enneper.hpp: hit, compute_uvt"]}
{"id": "C27", "title": "Surface normals are unit and face the ray", "statement": "After every successful hit of sphere, ellipsoid, disk, rectangle or torus, rec.normal has length 1, is orthogonal to the surface's tangent plane, rec.normal.direction <= 0, and front_face tells whether the outward normal opposed the ray.", "quantifier": "every shape parameter and ray", "why_tests_cant": "continuum of rays", "anchors": ["include/drt/hittable.hpp: hit_record::set_face_normal", "include/drt/sphere.hpp: hit", "include/drt/torus.hpp: hit"]}
{"id": "C28", "title": "Surface parameters round-trip", "statement": "For each point p on a sphere, ellipsoid, disk, cylinder or torus, (u,v)=get_uv(p) lies in [0,1]^2 and sigma(u,v)=p; hits store exactly these parameters.", "quantifier": "every point of every such surface", "why_tests_cant": "continuum of points; branch cuts of atan2/acos/asin", "anchors": ["include/drt/sphere.hpp: get_uv, operator()", "include/drt/torus.hpp: get_uv", "include/drt/cylinder.hpp: get_uv", "include/drt/ellipsoid.hpp: get_uv", "include/drt/disk.hpp: hit"]}
{"id": "C29", "title": "Jacobians are the true derivatives", "statement": "The J filled in by operator()(u,v,J) of sphere, helicoid and Enneper surface has as columns the partial derivatives of sigma with respect to u and v.", "quantifier": "every parameter (u,v), every shape parameter", "why_tests_cant": "derivatives are limits; finite differences only approximate them", "anchors": ["include/drt/sphere.hpp: operator()", "include/drt/helicoid.hpp: operator()", "include/drt/enneper.hpp: operator()"]}
{"id": "C30", "title": "Hessians are the true second derivatives", "statement": "The H filled in by operator()(u,v,J,H) of sphere, helicoid and Enneper surface holds the second partial derivatives of sigma and is symmetric.", "quantifier": "every parameter (u,v), every shape parameter", "why_tests_cant": "derivatives are limits; existing tests only use radius 1", "anchors": ["include/drt/sphere.hpp: operator()", "include/drt/helicoid.hpp: operator()", "include/drt/enneper.hpp: operator()"]}
{"id": "C31", "title": "Fundamental forms match the parametrisation", "statement": "After a hit, E,F,G are the inner products of the partial derivatives of sigma at (rec.u,rec.v), and e,f,g those of the second partials with a unit normal.", "quantifier": "every shape, every parameter", "why_tests_cant": "continuum; tests encode the implementation's own constants", "anchors": ["include/drt/hittable.hpp: hit_record", "include/drt/torus.hpp: set_fundamental_forms", "include/drt/ellipsoid.hpp: set_fundamental_forms", "include/drt/helicoid.hpp: hit", "include/drt/enneper.hpp: hit"]}
{"id": "C32", "title": "Reported Gaussian curvature is the curvature of the surface and within the advertised bounds", "statement": "rec.gaussian_curvature() equals the classical value for sphere, torus, ellipsoid, helicoid, Enneper; the closed forms gaussian_curvature(p) agree with it; gaussian_curvature_bounds() bound it and are attained.", "quantifier": "every shape parameter and surface point", "why_tests_cant": "continuum", "anchors": ["include/drt/hittable.hpp: gaussian_curvature", "include/drt/torus.hpp: gaussian_curvature, gaussian_curvature_bounds", "include/drt/ellipsoid.hpp: gaussian_curvature, gaussian_curvature_bounds", "include/drt/helicoid.hpp: gaussian_curvature_bounds", "include/drt/enneper.hpp: gaussian_curvature_bounds"]}
{"id": "C33", "title": "Principal curvatures have the right sum, product and order", "statement": "principal_curvatures() returns k1<=k2 with k1+k2=2H and k1*k2=K whenever E*G-F^2>0.", "quantifier": "every fundamental-form coefficients off the threshold", "why_tests_cant": "continuum", "anchors": ["include/drt/hittable.hpp: principal_curvatures, mean_curvature"]}
{"id": "C34", "title": "Bounding boxes contain the surface", "statement": "bounding_box() of each primitive contains every point of its surface, hence every reported hit point.", "quantifier": "every shape parameter, every surface point", "why_tests_cant": "continuum; orientation of the disk", "anchors": ["include/drt/sphere.hpp: bounding_box", "include/drt/torus.hpp: bounding_box", "include/drt/disk.hpp: bounding_box", "include/drt/cylinder.hpp: bounding_box", "include/drt/aarect.hpp: bounding_box", "include/drt/helicoid.hpp: bounding_box", "include/drt/enneper.hpp: bounding_box"]}
{"id": "C35", "title": "The slab test accepts every ray that passes through the interior of a box", "statement": "aabb::hit(r,t_min,t_max) returns true exactly when some open sub-interval of (t_min,t_max) lies inside the box's slabs; in particular it never rejects a ray that has an interior point of the box in the open window.", "quantifier": "every box, ray (zero direction components included), window", "why_tests_cant": "division by zero and 0*inf cases", "anchors": ["include/drt/aabb.hpp: aabb::hit"]}
{"id": "C36", "title": "A box containing the hit point is never culled", "statement": "If a point of the closed box lies on the ray at a t in [t_min,t_max], the box test accepts.", "quantifier": "every box including flat ones, every ray, window", "why_tests_cant": "grazing and flat boxes have measure zero", "anchors": ["include/drt/aabb.hpp: aabb::hit"]}
{"id": "C37", "title": "surrounding_box is the least common box", "statement": "surrounding_box(a,b) contains both boxes and is contained in every box containing both.", "quantifier": "every pair of boxes, any arithmetic with ordered comparison", "why_tests_cant": "continuum", "anchors": ["include/drt/aabb.hpp: surrounding_box"]}
{"id": "C38", "title": "A scene hit returns the nearest object", "statement": "hittable_list::hit returns the material of an object whose hit time is minimal among all objects in the list within the window, with that object's record; it returns null exactly when no object is hit strictly before t_max.", "quantifier": "every list of objects obeying the hit contract, every ray, window", "why_tests_cant": "unbounded number of objects", "anchors": ["include/drt/hittable_list.hpp: hit"]}
{"id": "C39", "title": "The nearest-hit answer does not depend on insertion order", "statement": "Permuting the objects of a scene changes neither whether a ray hits nor the hit time; when the nearest time is unique, nor the object.", "quantifier": "every scene and every permutation", "why_tests_cant": "factorially many orders", "anchors": ["include/drt/hittable_list.hpp: hit"]}
{"id": "C40", "title": "A returned hit record describes only the object that was hit", "statement": "Every field of the record returned by hittable_list::hit is determined by the object hit, not by objects tested before it.", "quantifier": "every scene", "why_tests_cant": "depends on the history of objects tested", "anchors": ["include/drt/hittable_list.hpp: hit", "include/drt/aarect.hpp: hit"]}
{"id": "C41", "title": "A bounding volume hierarchy finds the same hit as the list", "statement": "bvh_node::hit returns true exactly when some object of the list is hit in the window, and rec is the nearest object's record.", "quantifier": "every scene of objects obeying the hit contract with boxes, every construction choice of axes, every ray and window", "why_tests_cant": "unbounded scenes and random tree shapes", "anchors": ["include/drt/bvh.hpp: bvh_node::hit, bvh_node::bvh_node"]}
{"id": "C42", "title": "Hierarchy construction terminates and loses no object", "statement": "Building a bvh_node over a list terminates and its leaves are exactly the objects of the list; each node's box contains the boxes below it.", "quantifier": "every list, every sequence of random axes", "why_tests_cant": "unbounded lists; non-termination", "anchors": ["include/drt/bvh.hpp: bvh_node::bvh_node"]}
{"id": "C43", "title": "A participating medium scatters inside its boundary and window", "statement": "If constant_medium::hit returns true then rec.t lies in the window, is at least 0, and lies between the entry and exit times of the boundary; rec.p is the ray point.", "quantifier": "every boundary obeying the hit contract, density, ray, window and random number", "why_tests_cant": "random draws and continuum of rays", "anchors": ["include/drt/constant_medium.hpp: hit"]}
{"id": "C44", "title": "Lambertian scattering leaves on the normal's side", "statement": "lambertian::scatter always scatters, from rec.p, in a direction whose component along the unit rec.normal is positive.", "quantifier": "every unit normal and generator state", "why_tests_cant": "all random histories", "anchors": ["include/drt/lambertian.hpp: scatter, random_in_hemisphere"]}
{"id": "C45", "title": "The rejection sampler terminates and samples the unit ball", "statement": "random_unit_vector() terminates from every generator state and returns a vector of squared norm at most 1.", "quantifier": "every 64-bit generator state and every increment", "why_tests_cant": "2^64 states; termination", "anchors": ["include/drt/lambertian.hpp: random_unit_vector", "include/drt/pcg.hpp: pcg32_random_r"]}
{"id": "C46", "title": "The generator has full period", "statement": "The 64-bit generator state visits every one of the 2^64 states before repeating, whatever the seed and increment.", "quantifier": "every seed and increment", "why_tests_cant": "2^64 steps cannot be executed", "anchors": ["include/drt/pcg.hpp: pcg32_random_r"]}
{"id": "C47", "title": "Uniform samples lie in [0,1)", "statement": "pcg_real_01<Real> returns a value in [0,1) for float and double.", "quantifier": "every generator state", "why_tests_cant": "2^64 states; the offending outputs have probability 2^-25", "anchors": ["include/drt/pcg.hpp: pcg_real_01"]}
{"id": "C48", "title": "bounds::random returns a point in the bounds", "statement": "bounds::random() is contained in the bounds, as newton asserts.", "quantifier": "every bounds, every generator state, with floating-point rounding", "why_tests_cant": "rounding at the upper end", "anchors": ["include/drt/bounds.hpp: random, contains", "include/drt/newton.hpp: newton"]}
{"id": "C49", "title": "bounds::contains decides membership", "statement": "contains(v), contains(x,y), contains(x,y,z) return true exactly when each coordinate is within its bounds.", "quantifier": "every bounds and point", "why_tests_cant": "continuum; the overloads share no code", "anchors": ["include/drt/bounds.hpp: contains"]}
{"id": "C50", "title": "Interval addition and subtraction contain the exact result", "statement": "For x in X and y in Y the real x+y lies in X+Y and x-y in X-Y (also for -=), with floating-point rounding; the caller's rounding mode is restored.", "quantifier": "every pair of intervals with finite or infinite endpoints and every ambient rounding mode", "why_tests_cant": "rounding errors of every operand pair", "anchors": ["include/drt/interval.hpp: operator+, operator-, operator-="]}
{"id": "C51", "title": "Interval multiplication contains the exact product", "statement": "For x in X and y in Y the product xy lies in X*Y.", "quantifier": "every pair of intervals", "why_tests_cant": "rounding errors, 0*inf", "anchors": ["include/drt/interval.hpp: operator*"]}
{"id": "C52", "title": "Interval division contains the exact quotient", "statement": "For x in X and non-zero y in Y the quotient x/y lies in X/Y.", "quantifier": "every pair of intervals", "why_tests_cant": "sign configurations and rounding", "anchors": ["include/drt/interval.hpp: operator/"]}
{"id": "C53", "title": "Interval powers contain the exact powers", "statement": "For x in X, x^p lies in pow(X,p).", "quantifier": "every interval and exponent p>=0", "why_tests_cant": "all exponents and sign patterns", "anchors": ["include/drt/interval.hpp: pow"]}
{"id": "C54", "title": "Hull and intersection of intervals", "statement": "hull(X,Y) is the least interval containing both; intersection(X,Y) contains exactly the common points and reports empty() when there are none.", "quantifier": "every pair of intervals", "why_tests_cant": "continuum", "anchors": ["include/drt/interval.hpp: hull, intersection, empty"]}
{"id": "C55", "title": "Monotone interval functions contain the exact range", "statement": "sqrt/exp/log of an interval contain the image of every point, and the rounding mode is restored.", "quantifier": "every interval in the domain", "why_tests_cant": "rounding errors", "anchors": ["include/drt/interval.hpp: sqrt, exp, log"]}
{"id": "C56", "title": "Interval distance is a metric", "statement": "distance(X,Y) is symmetric, zero exactly for equal intervals and satisfies the triangle inequality.", "quantifier": "every triple of intervals, exact arithmetic", "why_tests_cant": "continuum", "anchors": ["include/drt/interval.hpp: distance"]}
{"id": "C57", "title": "Metal reflection", "statement": "metal::scatter reflects the normalised direction about rec.normal, starting at rec.p, and returns true exactly when the incoming ray is strictly against the normal.", "quantifier": "every ray with non-zero direction and every unit normal", "why_tests_cant": "continuum", "anchors": ["include/drt/metal.hpp: scatter"]}
{"id": "C58", "title": "Dielectric refraction obeys Snell's law", "statement": "When dielectric::scatter refracts, the outgoing direction is a unit vector in the plane of incidence on the other side with sin(theta_out)=ratio*sin(theta_in); when ratio*sin>1 it reflects; in every case the direction is unit.", "quantifier": "every unit normal, incoming ray facing it, positive index, random number", "why_tests_cant": "continuum; critical angle", "anchors": ["include/drt/dielectric.hpp: scatter, refract"]}
{"id": "C59", "title": "Schlick reflectance is a probability", "statement": "The reflectance used by dielectric::scatter lies in [0,1], equals 1 at grazing incidence and decreases with the cosine.", "quantifier": "every cosine in [0,1] and non-negative index ratio", "why_tests_cant": "continuum", "anchors": ["include/drt/dielectric.hpp: reflectance"]}
{"id": "C60", "title": "Path colours are bounded and recursion stops", "statement": "ray_color terminates after at most depth bounces; if background and emission are in [0,M] and albedos in [0,1] the colour of every path is in [0,M] when no emitter scatters, and in [0,(depth)*M] in general.", "quantifier": "every scene, ray, random history, depth", "why_tests_cant": "all path histories", "anchors": ["include/drt/ray_color.hpp: ray_color"]}
{"id": "C61", "title": "Camera geometry", "statement": "The viewport axes are orthogonal and orthogonal to the viewing direction, get_ray(1/2,1/2) points from lookfrom to lookat, get_ray is affine in (u,v), and the vertical extent subtends vfov.", "quantifier": "every camera with lookfrom<>lookat and view_up not parallel to the view", "why_tests_cant": "continuum", "anchors": ["include/drt/camera.hpp: camera, get_ray, backlight"]}
{"id": "C62", "title": "The frame buffer is written exactly once per pixel under every schedule", "statement": "All byte offsets written by render_scene are in bounds, different pixels write disjoint cells, every cell is written; with deterministic per-pixel colours the final image does not depend on the order of rows or pixels.", "quantifier": "every width, height and every interleaving of the pixel tasks", "why_tests_cant": "unbounded image sizes and schedules", "anchors": ["include/drt/render_scene.hpp: render_scene"]}
{"id": "C63", "title": "The rendered image does not depend on the thread schedule", "statement": "render_scene produces the same image under every OpenMP schedule.", "quantifier": "every schedule of the rows", "why_tests_cant": "schedules", "anchors": ["include/drt/render_scene.hpp: render_scene", "include/drt/pcg.hpp: pcg32_random_r"]}
{"id": "C64", "title": "Quantisation to bytes is safe and monotone", "statement": "to_8bit_rgba never converts an out-of-range number to a byte for any non-negative colour (infinity included), is monotone in each channel, maps 0 to 0 and anything >=1 to 255, and sets alpha to 255.", "quantifier": "every non-negative floating-point colour", "why_tests_cant": "2^64 values per channel", "anchors": ["include/drt/png.hpp: to_8bit_rgba"]}
{"id": "C65", "title": "Colour maps never index out of bounds", "statement": "Each tabulated colour map reads its tables only at indices 0..255 for every non-NaN scalar.", "quantifier": "every floating-point scalar except NaN, every binary format with enough precision", "why_tests_cant": "2^64 inputs; rounding of 255*s just below 1", "anchors": ["include/drt/color_maps.hpp: plasma, viridis, inferno, blackbody, kindlmann, extended_kindlmann, smooth_cool_warm"]}
{"id": "C66", "title": "Colour maps return displayable colours", "statement": "Every component returned by every colour map lies in [0,1] and the maps are continuous, interpolating the table at multiples of 1/255.", "quantifier": "every real scalar", "why_tests_cant": "continuum", "anchors": ["include/drt/color_maps.hpp"]}
{"id": "C67", "title": "Cost map normalisation is defined", "statement": "The normalised cost passed to the colour map is a number in [0,1] for every list of pixel times.", "quantifier": "every image size and timing", "why_tests_cant": "depends on timings", "anchors": ["include/drt/render_scene.hpp: render_scene"]}
{"id": "C68", "title": "Progress bar is always 100 cells wide", "statement": "display_progress prints exactly 100 cells between its brackets for every progress in [0,1], with floor(100*progress) of them filled.", "quantifier": "every progress in [0,1]", "why_tests_cant": "continuum", "anchors": ["include/drt/progress_bar.hpp: display_progress"]}
{"id": "C69", "title": "Pixel/plane maps are mutually inverse", "statement": "to_pixel(to_complex(i,j)) = (i,j) for every pixel; the disks drawn around roots stay in the image.", "quantifier": "every image size >= 2, non-zero xmin,ymin, every pixel", "why_tests_cant": "unbounded sizes", "anchors": ["src/newton_fractal.cpp: plane_pixel_map"]}
{"id": "C70", "title": "The fractal iteration terminates at every starting point", "statement": "complex_newton terminates for every starting value.", "quantifier": "every starting value", "why_tests_cant": "non-termination", "anchors": ["src/newton_fractal.cpp: complex_newton"]}
{"id": "C71", "title": "Helicoid intersection reads only initialised storage", "statement": "helicoid::hit never uses the value of an inverse matrix whose inversion failed, so every ray gives a defined answer.", "quantifier": "every radius, speed, ray and window", "why_tests_cant": "the failure needs a ray for which the solver meets a singular matrix exactly; uninitialised stack memory often happens to hold harmless values in a test run", "anchors": ["include/drt/helicoid.hpp: hit, compute_tuv", "include/drt/matrix.hpp: inverse"]}
{"id": "C72", "title": "Every output of the generator is equally likely", "statement": "Of the 2^64 states of the generator exactly 2^32 make pcg32_random_r return any given 32-bit value.", "quantifier": "every 32-bit value and every increment", "why_tests_cant": "counting needs all 2^64 states", "anchors": ["include/drt/pcg.hpp: pcg32_random_r"]}
{"id": "C73", "title": "Light from several sources adds up", "statement": "For the same scene, materials and random history, the colour ray_color returns when every emission is the sum of two emissions and the background the sum of two backgrounds is the sum of the two colours, and the generators end in the same state.", "quantifier": "every scene, ray, depth, pair of emissions, pair of backgrounds and random history", "why_tests_cant": "all path histories and all emissions", "anchors": ["include/drt/ray_color.hpp: ray_color"]}
{"id": "C74", "title": "Raising the bounce limit never darkens a path", "statement": "With non-negative emission, attenuation and background, ray_color from the same state with a larger depth returns a colour at least as large in every channel.", "quantifier": "every scene, ray, random history and pair of depths", "why_tests_cant": "all path histories", "anchors": ["include/drt/ray_color.hpp: ray_color"]}
{"id": "C75", "title": "Isotropic scattering directions are unit vectors", "statement": "isotropic::scatter continues from rec.p with the albedo as attenuation, along the unit vector of the three Gaussian draws, for all draws but (0,0,0), which gives a NaN direction.", "quantifier": "every draw, record and texture", "why_tests_cant": "continuum of draws", "anchors": ["include/drt/isotropic.hpp: scatter, random_in_unit_sphere"]}
{"id": "C76", "title": "The checker alternates", "statement": "Moving a point by pi/10 along any axis swaps the two textures of checker_texture (away from cell boundaries), and the cell next to the origin in the positive octant has the first one.", "quantifier": "every point off the cell boundaries", "why_tests_cant": "continuum", "anchors": ["include/drt/checker_texture.hpp: value"]}
{"id": "C77", "title": "Interval order is sound and complete", "statement": "X >= Y is true only if every point of X is at least every point of Y, and is true whenever that holds for non-empty intervals with finite ends.", "quantifier": "every pair of intervals in every floating-point format", "why_tests_cant": "continuum of intervals", "anchors": ["include/drt/interval.hpp: operator>="]}
{"id": "C78", "title": "Interval absolute value is exact", "statement": "abs(X) contains |x| for every x in X, and both of its ends are absolute values of points of X.", "quantifier": "every interval in every floating-point format", "why_tests_cant": "sign configurations over a continuum", "anchors": ["include/drt/interval.hpp: abs"]}
{"id": "C79", "title": "Samples stay inside the viewport", "statement": "The coordinates (u,v) of every sample of every pixel lie in [0,1]^2, in the cell of that pixel.", "quantifier": "every image size, pixel and draw", "why_tests_cant": "all sizes and draws", "anchors": ["include/drt/render_scene.hpp: render_scene"]}
{"id": "C80", "title": "The colour of a root depends on its angle only", "statement": "The scalar newton_fractal passes to the colour map is the angle of the root divided by a full turn, in [0,1), and the resulting colour is four bytes.", "quantifier": "every complex number", "why_tests_cant": "continuum", "anchors": ["src/newton_fractal.cpp: main"]}
{"id": "C81", "title": "A scene without objects renders as its background", "statement": "If no ray hits anything, every pixel of the image of render_scene is the quantised background, for every number of samples and every schedule.", "quantifier": "every image size, camera, sample count, non-negative background and schedule", "why_tests_cant": "unbounded sizes, sample counts and schedules", "anchors": ["include/drt/render_scene.hpp: render_scene", "include/drt/png.hpp: to_8bit_rgba"]}
{"id": "C82", "title": "The box of a list is the least box around its members", "statement": "hittable_list::bounding_box fails exactly when the list is empty or some member has no box; otherwise the box it returns contains the box of every member and lies in every box that does, whatever the output argument held before.", "quantifier": "every list of objects, exact and floating-point", "why_tests_cant": "unbounded lists and all boxes", "anchors": ["include/drt/hittable_list.hpp: hittable_list::bounding_box"]}
{"id": "C83", "title": "Areas and volumes are those of the surface and the solid", "statement": "sphere::area, sphere::volume, torus::area and torus::volume return the integral of the area element over the surface and of the volume element over the solid it bounds.", "quantifier": "every sphere of positive radius and every torus with 0 < r < R", "why_tests_cant": "continuum of shapes; an integral is not observable by running the code", "anchors": ["include/drt/sphere.hpp: area, volume", "include/drt/torus.hpp: area, volume"]}
{"id": "C84", "title": "Curvature plots use exactly the range of the colour map", "statement": "For every hit, the scalar handed to the colour map by torus_curvature, ellipsoid_curvature, helicoid and enneper lies in [0,1]: it is the affine (or logarithmic) position of the Gaussian curvature at the hit between the least and the greatest curvature of the surface.", "quantifier": "every surface, ray and window", "why_tests_cant": "continuum of rays and shapes", "anchors": ["src/torus_curvature.cpp: torus_scene", "src/ellipsoid_curvature.cpp: ellipsoid_scene", "src/helicoid.cpp: helicoid_scene", "src/enneper.cpp: enneper_scene"]}
{"id": "C85", "title": "Centre, volume and emptiness of a box of bounds", "statement": "bounds::center is a point of the box, half way between the ends in every coordinate; volume is the product of the widths; empty is true exactly when the box has no interior point.", "quantifier": "every number of dimensions and all ends; for the centre every IEEE format with rounding", "why_tests_cant": "rounding, overflow and underflow show only for special ends", "anchors": ["include/drt/bounds.hpp: center, volume, empty"]}
{"id": "C86", "title": "Width and emptiness of an interval", "statement": "width is never negative for ordered ends, is zero exactly when the ends agree, and is at least the distance of any two members; degenerate is one exactly for a single number; empty is true exactly when no real is a member.", "quantifier": "every IEEE format, rounding mode and interval", "why_tests_cant": "the last bit of a subtraction, subnormal differences and infinite ends", "anchors": ["include/drt/interval.hpp: width, degenerate, empty"]}
{"id": "C87", "title": "Condition number and gradient magnitude stored at a hit", "statement": "After helicoid::hit returns true, condition_number is the largest entry of the inverse of the Jacobian of sigma(u,v)-o-td divided by max(u,v,t) when that is positive, and gradient_magnitude is the length of sigma_u x sigma_v; the latter holds for enneper too.", "quantifier": "every radius, speed, ray, window and previous content of the record", "why_tests_cant": "a wrong entry of the Jacobian or inverse gives plausible numbers everywhere", "anchors": ["include/drt/helicoid.hpp: hit", "include/drt/enneper.hpp: hit"]}
{"id": "C88", "title": "Every scene of closed-form objects is rendered", "statement": "For a list of spheres, ellipsoids, disks and rectangles, each with any of the five materials and a texture that yields a real, non-negative colour at every real point, render_scene with a proper camera terminates: it performs no undefined step, no NaN or infinity reaches the image, the image has 4*width*height bytes, and every pixel is opaque.", "quantifier": "every such scene (any number of objects), camera, background, image size from 2x2, samples per pixel, pixel order and random source; any content of the uninitialised hit records", "why_tests_cant": "infinitely many scenes and random sequences; a NaN appears only on special rays", "anchors": ["include/drt/render_scene.hpp: render_scene", "include/drt/ray_color.hpp: ray_color", "include/drt/hittable_list.hpp: hit", "include/drt/lambertian.hpp, metal.hpp, dielectric.hpp, diffuse_light.hpp, isotropic.hpp: scatter, emitted"]}
{"id": "C89", "title": "A matte sphere under an even sky has its own colour", "statement": "With one Lambertian sphere and a uniform background, a ray from outside that meets the sphere gets the background times the texture's colour at the first meeting, a ray that misses it gets the background, and a ray from inside gets black, whatever is drawn and however deep the recursion (from 2).", "quantifier": "every sphere, texture, background, ray and random source", "why_tests_cant": "infinitely many rays and random sequences; tangent rays have measure zero", "anchors": ["include/drt/ray_color.hpp: ray_color", "include/drt/sphere.hpp: hit", "include/drt/lambertian.hpp: scatter", "include/drt/hittable.hpp: set_face_normal"]}
{"id": "C90", "title": "The vector newton keeps to its box", "statement": "If newton(f, bounds, guess) returns numbers rather than NaN, they lie in the box; a start outside the box can only widen the range to the start itself.", "quantifier": "every system, Jacobian, box, start, generator state and iteration limit", "why_tests_cant": "the escape needs a line search with a Jacobian entry near eps^2; infinitely many systems and boxes", "anchors": ["include/drt/newton.hpp: newton (vector)", "include/drt/bounds.hpp: contains, random"]}
{"id": "C91", "title": "The picture of the times covers the image and shows each pixel's own time", "statement": "render_scene's second picture overwrites every byte of the first, whatever it held and in whatever order the pixels were timed; pixel (i,j) has the inferno colour of (t-min)/(max-min) for its own time t, the fastest pixels are (13,3,30) and the slowest (249,255,204); the file is stem_cost.png and never the file of the scene.", "quantifier": "every image size, every schedule, all non-negative times not all equal, every file name", "why_tests_cant": "times are not reproducible; all sizes, schedules and names", "anchors": ["include/drt/render_scene.hpp: render_scene, cost map"]}
{"id": "C92", "title": "The fractal's functions return their own derivatives and vanish at the stated roots", "statement": "g, fifth_roots and fifth_roots_halley return the complex derivative(s) of the value they return; g vanishes exactly at the eight marked roots, fifth_roots exactly at the fifth roots of unity.", "quantifier": "every complex number", "why_tests_cant": "uncountably many points; a wrong derivative only slows the iteration down", "anchors": ["src/newton_fractal.cpp: g, fifth_roots, fifth_roots_halley"]}
{"id": "C93", "title": "The fractal picture: roots are marked black, all else has the colour of its root", "statement": "If complex_newton ends at every pixel, main writes an image in which exactly the pixels of the eight disks are black and every other pixel has the colour of the root its start leads to; if it does not end at some pixel there is no image, so a picture with a middle pixel is never finished.", "quantifier": "every image size from 46 to 2^63, every tolerance", "why_tests_cant": "all sizes and pixels; non-termination", "anchors": ["src/newton_fractal.cpp: main"]}
{"id": "C94", "title": "The fractal is symmetric", "statement": "Starting from the mirrored number, complex_newton on g reaches the mirrored root after the same number of steps (conjugation, and exchange of real and imaginary part), so the picture of the roots is symmetric upside down and, if square, across its diagonal.", "quantifier": "every starting value, tolerance and number of steps", "why_tests_cant": "uncountably many starting values", "anchors": ["src/newton_fractal.cpp: complex_newton, g, plane_pixel_map"]}
{"id": "C95", "title": "Halley's iteration ends at a fifth root", "statement": "complex_halley on fifth_roots_halley ends for every starting value, within 5/2 epsilon of a root.", "quantifier": "every starting value", "why_tests_cant": "non-termination; uncountably many starting values", "anchors": ["src/newton_fractal.cpp: complex_halley, fifth_roots_halley"]}
{"id": "C96", "title": "Every crossing of a ray with the helicoid is found", "statement": "If a point of the ray inside [t_min, t_max] is a point of the helicoid (parameters u, v in [0,1]), helicoid::hit returns true, and for vertical and horizontal rays it stores exactly that crossing; a vertical ray outside the radius is reported as a miss.", "quantifier": "every helicoid, ray and window", "why_tests_cant": "uncountably many rays; a missed crossing is a hole in a picture that a test has to aim at", "anchors": ["include/drt/helicoid.hpp: helicoid::hit", "include/drt/helicoid.hpp: helicoid::vertical_ray, helicoid::horizontal_ray, helicoid::vbounds"]}
{"id": "C97", "title": "The ranges of u and v that are searched contain the crossing", "statement": "For a ray that does not start inside the solid cylinder, ubounds returns exactly the u in [0,1] whose height the ray reaches in the window, and vbounds returns bounds that contain the v of every point of the ray in the window within the radius.", "quantifier": "every helicoid, ray and window", "why_tests_cant": "uncountably many rays and windows", "anchors": ["include/drt/helicoid.hpp: helicoid::ubounds, helicoid::vbounds"]}
{"id": "C98", "title": "The backlight lamp is behind the camera", "statement": "The disk lamp built from camera::backlight() is never hit by a ray that camera::get_ray() returns, so it lights the scene without appearing in the picture.", "quantifier": "every camera position, direction and angle of view below 180 degrees, every lamp radius, every viewport coordinate (also outside [0,1]), every search window that starts at a non-negative parameter", "why_tests_cant": "a picture shows finitely many rays of one camera; nothing looks for a lamp that should not be there", "anchors": ["include/drt/camera.hpp: backlight, get_ray", "include/drt/disk.hpp: hit", "src/disk.cpp: main", "src/ellipsoid_curvature.cpp: main"]}
{"id": "C99", "title": "Pixels are square", "statement": "One pixel to the right and one pixel up change the ray direction by perpendicular vectors of equal length when the height is the width divided by the aspect ratio.", "quantifier": "every camera, every picture of at least 2 by 2 pixels", "why_tests_cant": "the difference of 0.03 percent for 1800x1125 is invisible, and nothing measures the distortion of ellipsoid.cpp", "anchors": ["include/drt/camera.hpp: camera", "include/drt/render_scene.hpp: render_scene", "src/ellipsoid.cpp: main", "src/with_lights.cpp: main"]}
{"id": "C100", "title": "The random scene is well formed", "statement": "For all random draws random_scene() puts at most one small ball of radius 1/5 in each of the 22x22 cells, leaves out at most four cells, never touches the metal ball or the inside of the ground, and gives every ball a legal colour; the balls do not overlap one another.", "quantifier": "every sequence of draws in [0,1)", "why_tests_cant": "about 484*9 independent draws; the rejections depend on them", "anchors": ["src/render_spheres.cpp: random_scene"]}
{"id": "C101", "title": "The example programs produce a complete picture", "statement": "render_spheres, with_lights, disk and every frame of ellipsoid_curvature finish without undefined behaviour and set every byte of the image, alpha 255.", "quantifier": "every random draw, every initial content of the hit records, every order of the pixels, every texture with finite non-negative colours", "why_tests_cant": "one run draws one sequence under one schedule", "anchors": ["src/render_spheres.cpp: main", "src/with_lights.cpp: main", "src/disk.cpp: main", "src/ellipsoid_curvature.cpp: main"]}
{"id": "C102", "title": "The frames of the animation are independent and complete", "statement": "In ellipsoid_curvature.cpp no two frames write the same file (picture or cost picture), in every frame each point of the ellipsoid is in front of the camera and inside the viewport, and the lamp does not touch the ellipsoid.", "quantifier": "every frame number below 2^63, every point of the surface", "why_tests_cant": "names collide only for particular pairs, points leave the picture only for particular angles", "anchors": ["src/ellipsoid_curvature.cpp: main, ellipsoid_scene", "include/drt/render_scene.hpp: render_scene"]}
{"id": "C103", "title": "enneper.cpp renders the surface", "statement": "The program enneper.cpp finishes and writes its picture.", "quantifier": "every schedule, every random draw, every texture", "why_tests_cant": "the failure is undefined behaviour (uninitialised values), which may look like a picture", "anchors": ["src/enneper.cpp: main", "include/drt/enneper.hpp: hit"]}
{"id": "C104", "title": "The picture of cylinder.cpp", "statement": "cylinder.cpp produces a 1200 by 750 picture in which every pixel is (0, 0, b, 255) with b one of 0, 110, 156, 191, 220, 246, 255; the 151 lowest and the 152 highest rows are black. No ray of the camera meets the lamp, and each ray that meets the infinite cylinder meets it strictly between the two ends, so the missing caps and the inside are never seen.", "quantifier": "every order of the pixels, every state of the generators, exact arithmetic", "why_tests_cant": "2^32 values for each of the two draws of a sample, 14.4 million samples, and any thread schedule", "anchors": ["src/cylinder.cpp: cylinder_scene, main", "include/drt/cylinder.hpp: hit", "include/drt/render_scene.hpp: render_scene", "include/drt/ray_color.hpp: ray_color"]}
{"id": "C105", "title": "Scenes with fog are rendered", "statement": "A scene of closed-form objects with sound materials and constant_medium objects (a closed sphere or ellipsoid filled with an isotropic medium of positive density) is always rendered: no undefined behaviour, no endless loop, all bytes written, alpha 255.", "quantifier": "every list of such objects, every camera, size, number of samples, order of the pixels and every sequence of random draws (uniform draws in [0,1])", "why_tests_cant": "the free path is drawn anew for every intersection test, and the records of the medium start out uninitialised", "anchors": ["include/drt/constant_medium.hpp: hit", "include/drt/hittable_list.hpp: hit", "include/drt/render_scene.hpp: render_scene", "include/drt/ray_color.hpp: ray_color"]}
{"id": "C106", "title": "The picture of ellipsoid.cpp", "statement": "ellipsoid.cpp produces a 2880 by 1800 picture in which every pixel has r <= g <= b and alpha 255; each of its 32 samples is black or 7 times (0.02^n, 0.4^n, 0.9^n), n being the number of scatterings in the medium. No ray of the camera meets the lamp.", "quantifier": "every order of the pixels, every state of the generators, exact arithmetic", "why_tests_cant": "166 million samples, each a random path of up to the maximal depth", "anchors": ["src/ellipsoid.cpp: ellipsoid_scene, main", "include/drt/constant_medium.hpp: hit", "include/drt/isotropic.hpp: scatter", "include/drt/dielectric.hpp: scatter"]}
{"id": "C107", "title": "What the fractal iteration returns is a root", "statement": "Whatever complex_newton on g returns lies within 9 k epsilon |z| of one of the eight roots of z^8 + 15 z^4 - 16, k being the constant of the stopping test.", "quantifier": "every starting value, every number of steps, every k", "why_tests_cant": "uncountably many starting values; the test compares |f| with the size of the step, so it says nothing by itself about the distance to a root", "anchors": ["src/newton_fractal.cpp: complex_newton, g"]}
{"id": "C108", "title": "What Halley's iteration returns is a fifth root", "statement": "Whatever complex_halley on fifth_roots_halley returns is near a fifth root of 1.", "quantifier": "every starting value, every number of steps", "why_tests_cant": "uncountably many starting values; the exceptions lie in tiny neighbourhoods of the poles of the iteration", "anchors": ["src/newton_fractal.cpp: complex_halley, fifth_roots_halley"]}
{"id": "C109", "title": "A root has one colour", "statement": "Pixels whose iteration ends at the same root get the same colour, and pixels of different roots different scalars.", "quantifier": "every starting value, every number of steps, every constant of the stopping test", "why_tests_cant": "depends on the sign of a rounding-sized imaginary part", "anchors": ["src/newton_fractal.cpp: main (theta), complex_newton", "include/drt/color_maps.hpp: smooth_cool_warm"]}
{"id": "C110", "title": "Differences of products keep their digits", "statement": "In floating point, difference_of_products(a,b,c,d), each component of cross(u,v) and discriminant(a,b,c) are within about 3 units of roundoff, relatively, of the exact ab-cd, cross product and b^2-4ac, even when the two products cancel; in particular the sign of the discriminant is always right.", "quantifier": "every binary format with at least 8 bits, every input that is zero or between 2^-k and 2^k in size (k about 455 for double, 36 for float)", "why_tests_cant": "cancellation depends on the last bits of the inputs; the bound is over 2^256 quadruples", "anchors": ["include/drt/math.hpp: difference_of_products", "include/drt/vec.hpp: cross", "include/drt/roots.hpp: discriminant"]}
{"id": "C111", "title": "Quadratic roots are accurate in floating point", "statement": "quadratic_roots returns nothing exactly when b^2-4ac < 0, and otherwise two finite numbers in order, each within three machine epsilons, relatively, of the corresponding exact root; first_quadratic_root_in_range returns the first of them that lies in the window.", "quantifier": "every binary format with at least 8 bits, all coefficients that are zero or between 2^-k and 2^k in size with a nonzero, every window", "why_tests_cant": "the worst cases are nearly equal roots and roots of very different sizes, decided by the last bits of the coefficients", "anchors": ["include/drt/roots.hpp: quadratic_roots, first_quadratic_root_in_range"]}
{"id": "C112", "title": "Lengths and unit vectors are accurate in floating point", "statement": "In floating point dot(v,w) is within 4 units of roundoff of v.w relative to the sum of |v_i w_i|; squared_norm and norm are within 4 units of roundoff, relatively; and normalize gives every component within 5 units of roundoff, relatively, and a vector whose true length differs from 1 by at most 5 units of roundoff.", "quantifier": "every binary format with at least 8 bits, all vectors with components that are zero or between 2^-k and 2^k in size (nonzero vectors for norm and normalize)", "why_tests_cant": "the error depends on the last bits of the components; the claim is over all vectors of all formats", "anchors": ["include/drt/vec.hpp: dot, squared_norm, norm, normalize"]}
{"id": "C113", "title": "Floating-point hits on a sphere lie on the sphere", "statement": "Whenever sphere::hit reports a hit in floating point, the parameter is inside the window, the point of the ray at that parameter and the reported point satisfy the equation of the sphere up to 2700 and 2900 units of roundoff times S^2, the normal is plus or minus (p-C)/r up to 3 units of roundoff times S/r and has length 1 up to 3000 units of roundoff times (S/r)^2, S being the largest of the coordinates of origin and centre and the radius. Conversely a line that enters the sphere by a margin of 400 units of roundoff times S^2 is reported, if the window holds the parameters near the surface.", "quantifier": "every binary format with at least 24 bits and an exponent range of at least 4k + 6 prec + 16 (double with k = 172, extended; not single), all spheres, rays, windows and records with coordinates that are zero or between 2^-k and 2^k in size, nonzero radius and direction", "why_tests_cant": "grazing rays, far origins and tiny spheres amplify rounding errors differently; the bound is over all of them", "anchors": ["include/drt/sphere.hpp: hit", "include/drt/roots.hpp: first_quadratic_root_in_range", "include/drt/ray.hpp: operator()"]}
{"id": "C114", "title": "The bounding-box test in floating point errs only by roundoff", "statement": "In floating point, aabb::hit accepts every ray that is in the closed box at two parameters t < t' of the window which are further apart than 4 units of roundoff times |t| + |t'|. Conversely, if it accepts, then at some parameter of the window the ray is in the box enlarged on each side by 4 units of roundoff times the distance of that side from the ray's origin. This includes directions with components that are plus or minus zero and origins on the planes of the box.", "quantifier": "every binary format with at least 8 bits, all boxes and rays with coordinates that are zero or between 2^-k and 2^k in size (double: k = 455, single: k = 36), all windows with ends that are not NaN, possibly infinite", "why_tests_cant": "culling a box wrongly shows up as a rare missing pixel; the claim is over all boxes, rays and windows of all formats, including divisions by zero", "anchors": ["include/drt/aabb.hpp:18-31"]}
{"id": "C115", "title": "The picture of helicoid.cpp has black margins and shows none of its lamps", "statement": "helicoid.cpp's camera rays all start at (0,-4,0) with direction (tan 20° (2s-1), 1, tan 20° (2t-1)). No ray of a pixel of the 1200x1200 picture hits any of the three disk lamps directly. Every pixel in columns 0-173 and 1025-1199 is opaque black, for every texture, whatever the state of the generator and of the materials: those rays miss helicoid, cylinder and lamps, and the background is black.", "quantifier": "all textures, all pixels, all draws of the generator, all depths, all prior states of the materials", "why_tests_cant": "the picture has 1440000 pixels with 512 random samples each; the claim covers every draw", "anchors": ["src/helicoid.cpp:24-107", "include/drt/camera.hpp:14-60", "include/drt/helicoid.hpp", "include/drt/cylinder.hpp", "include/drt/disk.hpp"]}
{"id": "C116", "title": "In floating point a list returns the nearest reported hit", "statement": "For a hittable_list of spheres, ellipsoids, disks and axis-parallel rectangles, in floating point: if any object, asked alone, reports a hit in the window strictly before its end, the list reports a hit; the record returned is the one some object writes when asked alone, its t is in the window and not after any object's own report, and strictly before those of objects added earlier. If there is no such report the list answers nothing and leaves the record alone. The order of insertion does not change whether something is hit nor the value of t.", "quantifier": "every binary format and libm, all parameters of objects, ray and window including infinities and NaN, all lists, all permutations", "why_tests_cant": "shrinking the window between objects could change which root of an object is found; the claim is over all scenes, rays and special values", "anchors": ["include/drt/hittable_list.hpp:36-58", "include/drt/roots.hpp:91-103", "include/drt/sphere.hpp", "include/drt/ellipsoid.hpp:114-143", "include/drt/disk.hpp:98-140", "include/drt/aarect.hpp:99-151"]}
{"id": "C117", "title": "In floating point a hierarchy loses only hits whose box the ray barely passes", "statement": "A bvh built from a non-empty list of spheres and ellipsoids, in floating point: what it reports is what one of its objects reports, in the window; and if an object asked alone reports a hit at t, and the ray is in that object's own box at two parameters of the window up to t that are further apart than 4 units of roundoff times their sizes, then the hierarchy reports a hit at or before t. Otherwise it may cull, and leaves the record alone when it reports nothing.", "quantifier": "every binary format with at least 8 bits, all lists of spheres and ellipsoids with boxes and rays of moderate size (between 2^-450 and 2^450 for double, or zero), all choices of axes and all sorting procedures that permute, all windows", "why_tests_cant": "a wrongly culled subtree shows as a rare missing pixel that depends on roundoff and on the random axes", "anchors": ["include/drt/bvh.hpp:44-131", "include/drt/aabb.hpp:18-56"]}
{"id": "C118", "title": "A ray scattered off the outside of a sphere does not hit that sphere again", "statement": "When a ray hits a sphere from outside and a matte or metal material scatters it, the scattered ray does not hit the same sphere again in a window that starts above 0: always in exact arithmetic; in floating point when the error of the hit point, u(131 W^2 + 3 W|c|) + 8u(|p-c|^2 + r^2) for a ray starting at distance W, is below twice the window start times the speed at which the ray leaves. ray_color's window start of 1000 epsilon is meant to ensure this and does not: the corner sphere of render_spheres, in single precision, is hit twice, and seen alone under a white sky it is black where exact arithmetic gives its albedo.", "quantifier": "exact: all spheres of positive radius, rays off the root finder's threshold, generator states, textures and windows starting above 0; floating point: every format with at least 24 bits, all spheres, rays and directions of moderate size, every libm", "why_tests_cant": "whether a ray hits its own surface again depends on the last bits of the hit point; it shows as dark pixels for far or large objects only", "anchors": ["include/drt/ray_color.hpp:15", "include/drt/sphere.hpp:146-163", "include/drt/lambertian.hpp:23-34", "include/drt/metal.hpp:18-27", "src/render_spheres.cpp:40-67"]}
{"id": "C119", "title": "The equations handed to newton are those of the intersection, with their Jacobian", "statement": "compute_uvt of the Enneper surface hands newton the function sigma(u,v) - (o + t d) and the matrix of its partial derivatives with respect to u, v, t; compute_tuv of the helicoid hands newton the x and y components of o + t d - sigma(u,v), with u chosen so that the z component is 0, and the matrix of their partial derivatives with respect to t and v.", "quantifier": "all rays, all parameter values, all helicoids of positive radius and speed", "why_tests_cant": "a wrong entry only slows the iteration or moves it to another root for some rays, as the line search still decreases the residual", "anchors": ["include/drt/enneper.hpp:114-125", "include/drt/helicoid.hpp:334-354"]}
{"id": "C120", "title": "The comparator given to std::sort is a strict weak ordering", "statement": "box_x_compare, box_y_compare and box_z_compare are irreflexive, transitive, and have a transitive equivalence on objects whose box has no NaN in the compared coordinate, and give an answer for all objects with boxes; spheres, ellipsoids, tori and disks with finite parameters have such boxes. With NaN in a box the equivalence is not transitive, and std::sort's precondition is violated.", "quantifier": "exact arithmetic and every binary format, all objects with a bounding box, all three axes", "why_tests_cant": "std::sort has undefined behaviour only for particular sequences; the requirement is about all triples of elements", "anchors": ["include/drt/bvh.hpp:55-81", "include/drt/bvh.hpp:116"]}
{"id": "C121", "title": "In floating point every picture of simple objects is complete", "statement": "With spheres, ellipsoids, disks, rectangles and cylinders of any parameters, media in them, attenuations in [0,1] and light and background in [0,2^e], hit always answers, the colour ray_color returns at depth n lies in [0, n 2^e], and render_scene finishes, sets every byte of the image and alpha to 255: no NaN reaches the conversion to bytes, although rays, hit points and normals may be NaN. In particular render_spheres and with_lights in float, and cylinder, disk, ellipsoid (with its medium) and ellipsoid_curvature in double, produce their pictures.", "quantifier": "every binary format of at least 24 bits, every libm, camera (NaN included), every random draw, every initial content of the hit records, every order of the pixels", "why_tests_cant": "one NaN colour in billions of rays is undefined behaviour in the conversion to bytes; a test renders a few frames", "anchors": ["include/drt/render_scene.hpp:20-60", "include/drt/ray_color.hpp:9-33", "include/drt/png.hpp: to_8bit_rgba", "src/render_spheres.cpp: main", "src/with_lights.cpp: main", "src/cylinder.cpp: main", "src/disk.cpp: main", "src/ellipsoid_curvature.cpp: main"]}
{"id": "C122", "title": "compute_uvt of enneper returns the solution with the least t", "statement": "Among the solutions found, NaN ones included, the loop at the end of compute_uvt returns a member; if some member has t below numeric_limits::max(), the returned one has the least t, and otherwise the first is returned.", "quantifier": "every non-empty list of solutions, exact and in every binary format, any libm", "why_tests_cant": "which solutions are NaN depends on the random starting points; a wrong choice shows only when a hidden sheet is found first", "anchors": ["include/drt/enneper.hpp:143-153"]}
{"id": "C123", "title": "In floating point a rectangle does not hide itself from the light it scatters", "statement": "When a ray from across-coordinate a hits an axis-parallel rectangle in the plane K at a finite t within ray_color's window, the computed hit point is within 2^-prec (|K| + 4|K-a| + 1) of the plane, and a ray leaving from that point with across-component b', where |K| + 4|K-a| + 1 <= 1990 |b'|, does not hit the rectangle again in the window starting at 1000 epsilon. In particular, if |K| + 4|K-a| <= 1989, a matte rectangle is never hit again by the ray it scatters. The bound cannot be dropped: in double precision a matte square at height 3000 hides itself. A metal rectangle mirrors the normalised direction without rounding.", "quantifier": "every binary format of at least 24 bits, every libm, rectangle of the three orientations, ray, window, generator state", "why_tests_cant": "shadow acne depends on the rounding of single rays; a picture of a few rectangles near the origin shows none", "anchors": ["include/drt/aarect.hpp:99-151", "include/drt/ray_color.hpp:14-16", "include/drt/lambertian.hpp: scatter", "include/drt/metal.hpp: scatter"]}
{"id": "C124", "title": "In floating point metal mirrors and glass refracts, up to a few units of roundoff", "statement": "For a ray of non-zero direction d and a record with a normal n of length about 1, the direction metal::scatter returns has components within 34 units of roundoff u of the mirror image of d/|d| in n, and the ray is kept if it comes from the front by more than 80u and absorbed if it comes from behind by more than 80u. For d.n <= 0 and index between 1/4 and 4, dielectric::scatter always returns attenuation 1 and a direction that is either the mirror image within 34u, or satisfies Snell's law: its part across the normal is the ratio of the indices times that of d/|d|, the rest points against the normal, both within 110u + 5 dl, and its squared length is within 1300u + 120 dl of 1, where dl bounds the error of |n|^2. Refraction is only chosen when Snell's law has a solution up to 850u + 75 dl, so there is no NaN at the critical angle.", "quantifier": "every binary format of at least 24 bits, every libm, ray direction of moderate size, normal, index, draw (NaN included)", "why_tests_cant": "near the critical angle the square root amplifies rounding; a test picks a few angles and one format", "anchors": ["include/drt/metal.hpp:18-27", "include/drt/dielectric.hpp:12-20", "include/drt/dielectric.hpp:33-56", "include/drt/vec.hpp:194-197"]}
{"id": "C125", "title": "In floating point metal spheres mirror and glass spheres refract, about the true normal", "statement": "If sphere::hit reports a hit of a ray of direction d at a point p, then metal::scatter returns a direction whose components differ from the exact mirror image of d/|d| in the exact radial direction q = (p - c)/r, normalised, by at most 6000e, where e = u (S/|r|)^2, u is the unit of roundoff and S bounds the coordinates of origin and centre and the radius. If the ray is not within 3100e of grazing, front_face says whether it comes from outside and the reflected ray is kept. Under the same margin dielectric::scatter returns either that mirror image within 6000e, or a direction that obeys Snell's law about q within 27000e, with ratio 1/ir going in and ir going out, on the far side of the surface, and of squared length within 370000e of 1.", "quantifier": "every binary format of at least 24 bits, every libm, sphere (hollow ones of negative radius included) and ray of moderate size with e <= 1/3000000, window, index between 1/4 and 4, draw", "why_tests_cant": "the errors of the root, the point, the division by the radius and the bending add up; a test samples a few rays", "anchors": ["include/drt/sphere.hpp:146-163", "include/drt/hittable.hpp:26-29", "include/drt/metal.hpp:18-27", "include/drt/dielectric.hpp:33-56"]}
{"id": "C126", "title": "In floating point the camera's rays go through their samples", "statement": "For a camera whose four vectors have coordinates of at most B, pixel (i, j) of a picture with 2 to 2^24 columns and rows, and any states of the generator, the ray that render_scene asks of get_ray starts at the camera's origin, and the components of its direction differ from lower_left + s horizontal + t vertical - origin by at most 28uB, where s = (i + x)/(width - 1) and t = (j + y)/(height - 1) are exact for the draws x and y in [0,1] and u is the unit of roundoff. Computed places of samples in different columns are never in the wrong order, and each is in its pixel up to 5u.", "quantifier": "every binary format of at least 24 bits, every libm, camera, picture size, pixel and generator state", "why_tests_cant": "rounding of (i + x)/(width - 1) depends on every bit of the draw and the column; tests sample a few", "anchors": ["include/drt/camera.hpp:32-34", "include/drt/render_scene.hpp:39-44", "include/drt/pcg.hpp:25-28"]}
{"id": "C127", "title": "In floating point the constructor of the camera aims it as asked", "statement": "Let the camera be built by its constructor from lookfrom o, lookat p and view_up q, with |q| at most 2, q at least 1/10 long across the line of sight, H in [0,4] the tangent of half the angle that the library computes, A in [0,4] the aspect ratio and the coordinates of o at most B, B at least 64. With the exact axes w = (o-p)/|o-p|, a = (q x w)/|q x w| and v = w x a, the stored sides of the viewport are 2HA a and 2H v up to 60900u and 31250u in each component, and the direction of the ray for every sample of every pixel is 2HA(s - 1/2) a + 2H(t - 1/2) v - w up to 3700uB in each component, where s = (i + x)/(width - 1) and t = (j + y)/(height - 1) exactly for the draws x and y. Nothing overflows or is a NaN.", "quantifier": "All binary formats with 24 or more bits and 4k + 6 prec + 16 <= emax (double with k up to 172), all moderate positions, all up vectors as stated, all libm results H in [0,4], all widths and heights from 2 to 2^24, all pixels, all states of the generator.", "why_tests_cant": "A test can only look at a few cameras, and cannot tell a wrong axis that is off by rounding from one that is off by cancellation in the cross products for some view directions.", "anchors": ["include/drt/camera.hpp:11-34", "include/drt/vec.hpp:116-209", "include/drt/math.hpp:10-15", "include/drt/render_scene.hpp:39-44"]}
{"id": "C128", "title": "In floating point the hits of an ellipsoid are on the ellipsoid", "statement": "Let ellipsoid::hit report a hit for an ellipsoid with centre c and semi-axes s and a ray from o along d. Then the stored t is a number inside the window asked for, nothing overflows or is a NaN, and with u the unit roundoff and S any number, at least 1, such that no coordinate of o or c exceeds S times its semi-axis: the exact point of the ray at t makes the sum of squares ((x-c)/s)^2 differ from 1 by at most 11200uS^2, the stored point is within 47uS semi-axes of that exact point in each coordinate, and it makes the same sum differ from 1 by at most 11500uS^2. For positive semi-axes the corners of bounding_box are c-s and c+s up to 3uS semi-axes, and the stored points of all hits are inside that box up to 5760uS^2 semi-axes.", "quantifier": "All binary formats with 24 or more bits and 12k + 10 prec + 36 <= emax (double with k up to 38), all ellipsoids and rays whose coordinates are zero or between 2^-k and 2^k in size, all non-zero semi-axes of either sign, all non-zero directions, all windows, all libms.", "why_tests_cant": "A test looks at a few ellipsoids; whether cancellation in the quadratic, which is set up after division by semi-axes of very different lengths, can move a hit off the surface is a statement about all of them.", "anchors": ["include/drt/ellipsoid.hpp:114-149", "include/drt/roots.hpp", "include/drt/ray.hpp"]}
{"id": "C129", "title": "In floating point the normals of an ellipsoid are the true normals", "statement": "Let ellipsoid::hit report a hit for an ellipsoid with centre c and semi-axes s, with no coordinate of the ray's origin or of c larger than S semi-axes, S at least 1 and 11500uS^2 at most 1/4, u the unit roundoff. Then the stored normal is a vector of numbers, and if front_face is set the normal itself, otherwise its negative, differs in each component by at most 27u from the exact unit gradient of ((x-c)/s)^2 + ... at the stored point. In particular underflow in components of the gradient never spoils the normal.", "quantifier": "All binary formats with 24 or more bits and 12k + 10 prec + 36 <= emax (double with k up to 38), all ellipsoids and rays whose coordinates are zero or between 2^-k and 2^k in size, all non-zero semi-axes of either sign, all non-zero directions, all windows, all libms.", "why_tests_cant": "A test compares a few normals with a tolerance; it cannot show that no hit point, however close to an axis, makes the scaled gradient or its length lose accuracy.", "anchors": ["include/drt/ellipsoid.hpp:114-143", "include/drt/hittable.hpp", "include/drt/vec.hpp:107-132"]}
