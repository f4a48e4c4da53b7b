# Design of the formal model of stepper_paths

## What is verified

`/repo` (fluffware/stepper_paths, rust) plans stepper motor motion: it reads SVG
or bitmap input, plans acceleration sequences, emits a stream of timed events
and plays the stream to a controller over a serial line.  The model in
`rocq/theories` is a set of total Gallina functions written function by function
from the source, each citing the file and lines it models.

## Trusted base

* Coq 8.16.1's kernel (including `vm_compute`).
* The axioms that `Print Assumptions` lists below each property theorem.  The
  integer part is closed under the global context.  Theorems over real numbers
  use the standard library's classical reals
  (`ClassicalDedekindReals.sig_forall_dec`, `ClassicalDedekindReals.sig_not_dec`,
  `FunctionalExtensionality.functional_extensionality_dep`, and where the
  standard library's `atan`, derivative or integral theory is used also
  `Classical_Prop.classic`).
  No axiom is added by this development.
* That the Gallina definitions say what the rust source says (checked by reading
  and by mutation testing, see `seeded/LOG.jsonl`).

## Modelling conventions

* Integers are `Z`.  Rust `/` and `%` on integers are `Z.quot` and `Z.rem`,
  `div_rem` likewise, `div_mod_floor` is `Z.div`/`Z.modulo`.
* A panic (assert, unwrap, failed `try_from`, explicit `panic!`) is the value
  `Panic` of `res A := Ok a | Panic`.
* Overflow: casts written with `as` are modelled with their exact wrapping or
  saturating meaning.  Plain arithmetic on machine integers is modelled either
  as checked arithmetic (an overflow is `Panic`, as in a debug build) or, in the
  planner, over unbounded `Z` and a second time with every operation checked
  (CheckedCurve.v); C21 says where both give the same result.
* Loops are structural recursion or recursion on explicit fuel with a distinct
  result on exhaustion, excluded in the theorems.
* Floating point: where the property is about the machine behaviour (NaN,
  saturation, rounding) Flocq's IEEE binary64 operations with one NaN are used;
  where it is about geometry, real numbers are used and rounding is not
  modelled (said at each definition), except that path building, the
  evaluation of curves, the parsers and the reading of documents have a second
  model in binary64 (FloatPath.v, FloatLex.v, FloatDocument.v).
* The other side of an interface (serial line, controller, curve, XML reader,
  element filter) is an arbitrary function or stream quantified in the theorem.

## Files

`Props*.v` contain the property theorems and `Print Assumptions`, with an
`Example` showing that the hypotheses are met by a concrete non-trivial case.

## Plan per property

| id | property | model file | how it will be proved |
|---|---|---|---|
| C01 | Adding a range to a MultiRange is set union | MultiRange.v | list of (low,high) over Z, or() as two index scans; set semantics `In`; invariant over op lists by induction |
| C02 | Pruning a MultiRange with and() is set intersection | MultiRange.v | and() loop as structural recursion; set semantics, sortedness |
| C03 | and_range is intersection, and commutes | MultiRange.v | and_range two-pointer loop on explicit remaining list; set semantics; commutation as corollary |
| C04 | bounds() is the tight hull and is_empty() is emptiness | MultiRange.v | first/last of the sorted list |
| C05 | acc_push appends exactly the requested ticks | AccVector.v | denotation `ticks : list seg -> list Z`; acc_push appends `repeat`; invariant over push histories |
| C06 | acc_distance equals tick by tick motion | AccVector.v | acc_distance against a one-tick-at-a-time fold |
| C07 | acc_iter(t) enumerates the remaining accelerations | AccVector.v | iterator state machine; unfolding to the suffix of the denotation |
| C08 | find_root brackets the sign change of the quadratic | Solve.v | bisection with log2 fuel, exhaustion excluded by theorem |
| C09 | find_roots separates the solution set of a quadratic inequality | Solve.v | convexity argument over Z; doubling loop with fuel |
| C10 | split_acc decomposes a velocity change | IntegerCurve.v | quot/rem arithmetic |
| C11 | A planned path can always be expanded to segments | IntegerCurve*.v | every assert/unwrap/try_from is an explicit Panic; theorem says Ok |
| C12 | A planned path reaches its target | IntegerCurve*.v | replay of the tick list; key lemma: distance as function of vflat has increment 2N(v) |
| C13 | A planned path respects the acceleration limit | IntegerCurve*.v | Forall over the tick list |
| C14 | A planned path respects the speed limit | IntegerCurve*.v | Forall over all prefixes of the tick list |
| C15 | Coordinated axes arrive together | IntegerCurve*.v | induction over the list of requests |
| C16 | Every advertised duration is achievable | IntegerCurve*.v | the tick list built by adjust_curve is the witness |
| C17 | shortest_curve is safe but not always shortest | IntegerCurve*.v | `_refuted` witness by vm_compute + lower bound lemma |
| C18 | Rest to rest moves are at most one tick from optimal | PropsOptimal.v | the distance any tick list loses below a speed, forwards and backwards, bounds what n ticks can do |
| C19 | DistancePath::distance is the distance travelled | IntegerCurve*.v | same as C12 |
| C20 | Mirrored requests take the same time | IntegerCurve*.v | commutation of and_range |
| C21 | Overflow in the planner arithmetic | CheckedCurve.v, CheckedProofs.v, CheckedBounds.v, PropsChecked.v | second copy of the planner with every i64 operation checked: it panics or agrees with the first, it agrees for all durations and all storable sequences; an overflowing request refutes the unrestricted claim |
| C22 | The event stream reproduces the reported position | StepperContext.v | independent tick machine executing the event list; invariant over op histories |
| C23 | Event deltas are chronological and never truncated | StepperContext.v | history invariant: decoded absolute times |
| C24 | Both channels stay synchronised | StepperContext.v | history invariant |
| C25 | step_goto arrives at rest at the target | StepperContext.v | C15 + context |
| C26 | The laser is off while moving to a position | StepperContext.v | weight register of the tick machine at each tick |
| C27 | The flushed stream stops the machine safely | StepperContext.v | tick machine state after the flush |
| C28 | reset() forgets the past | StepperContext.v | bisimulation on op lists |
| C29 | speed() reaches the requested velocity but desynchronises the channels | StepperContext.v | per channel invariant + `_refuted` witness |
| C30 | step_goto_speed checks the end velocity only from above | StepperContext.v | witness by vm_compute |
| C31 | Each event is accepted exactly once, in order, at its absolute time | StepperControl.v | controller as arbitrary reply stream; trace semantics of writes |
| C32 | A full queue is retried without loss or duplication | StepperControl.v | trace shape |
| C33 | A controller error aborts and resets | StepperControl.v | trace shape |
| C34 | Commands survive the wire format | StepperControl.v | decoder for the text format, decode(encode)=id |
| C35 | Reply framing is independent of timing | StepperControl.v | read loop over an arbitrary stream of read results |
| C36 | Curve following never exceeds the speed limit | ApproxCurve.v | Flocq binary64 (single NaN) model of approx_curve, curve = arbitrary function |
| C37 | Curve following can exceed the acceleration limit | ApproxCurve.v | witness by vm_compute; bound through real semantics or integer saturation |
| C38 | Curve following takes exactly the requested time | ApproxCurve.v | loop count |
| C39 | The laser burns only along drawn curves | DrawCurves.v, DrawProofs.v | timeline of the runs, tick machine weight |
| C40 | draw_curves drops some GoTos | DrawCurves.v, DrawProofs.v | witnesses; relation `pieces` with the set of GoTos that may be skipped |
| C41 | Every drawable segment is drawn exactly once, in order | DrawCurves.v, DrawProofs.v | loop invariant: pieces, closed runs, open run |
| C42 | find_row_interval returns the exact dark span of a row | ImageRaster.v, RasterProofs.v | row as a list of pixels |
| C43 | A raster line exposes each pixel with its own weight | ImageRaster.v, RasterProofs.v | loop invariant on the weight in force; coasting after the goto; tick machine |
| C44 | Relative and absolute path commands agree | PathBuild.v, PropsBuild.v | over R; independent rewriting of commands to absolute form |
| C45 | Path building commutes with affine transforms | PathBuild.v, PropsBuild.v | over R; arcs excluded, see C77-C79 |
| C46 | Malformed argument lists are rejected | PathBuild.v, PropsBuild.v | argument counts; segments determine the arguments |
| C47 | Quadratic curves are converted exactly | PathBuild.v, PropsBuild.v | over R, polynomial identity with the Bernstein form |
| C48 | Number lexing follows the SVG number grammar | PathLex.v, PathGrammar.v, PropsLex.v | nom combinators on lists of code points; grammar as an inductive relation |
| C49 | Compact SVG number lists are not accepted | PathLex.v, PropsLex.v | three state automaton that every derivable text passes |
| C50 | parse_path always terminates and consumes its input | PathLex.v, PropsLex.v | fuel = text length; sound and complete for the path grammar |
| C51 | Transform lists compose left to right | PathLex.v, PropsTransform.v | grammar of transforms with their action on points |
| C52 | parse_transform silently ignores trailing input | PathLex.v, PropsTransform.v | longest prefix; what is dropped; witnesses |
| C53 | Each path is placed by the transforms of its ancestors | SvgDocument.v, PropsSvg.v | event loop against visits of root-to-element chains of a tree |
| C54 | Filtered elements contribute nothing | SvgDocument.v, PropsSvg.v | chains of the pruned tree; attributes of a layer |
| C55 | Transform algebra | Coords.v | over R |
| C56 | rotate_around fixes its pivot and is a rigid motion | Coords.v | over R with sin/cos |
| C57 | decompose recomposes except in one branch | Coords.v | over R with an atan2 specified from atan; witness |
| C58 | CurveSegment transform acts on the drawn curve | Curves.v | over R |
| C59 | Lines and circle arcs have unit direction and start at the origin | Curves.v | over R, derivable_pt_lim |
| C60 | Bezier split reproduces the curve | Curves.v | over R, ring |
| C61 | Bezier evaluation agrees with the power basis | Curves.v | over R, ring |
| C62 | Concatenated curves are continuous and ordered | Curves.v | over R, list induction |
| C63 | Polynomial helpers compute what they are named for | Polynomials.v | over R, list induction |
| C64 | Arc length tables are continuous | Polynomials.v | over R, list induction |
| C65 | Gauss quadrature integrates polynomials and what is near one | Gauss.v, PropsGauss.v, PropsNodes.v | errors of the moments computed in Q from the printed tables, lifted to all polynomials by linearity and to antiderivatives by the mean value theorem; roots and weights of the Legendre polynomials enclosed in Q to forty digits |
| C66 | Direction tests on vectors | Coords.v | over R |
| C67 | Playing a stream ends successfully when the controller cooperates | ControlLive.v | port that plays a script of reads; fuel monotonicity |
| C68 | Taylor coefficients of the speed are the derivatives | Polynomials.v, TaylorProofs.v | over R; terms c·q·p^(k/2) differentiated symbolically, invariant against derivable_pt_lim |
| C69 | find_param inverts the arc length table | Polynomials.v, TableProofs.v | bisection with fuel; binary search as a relation that admits every legal result |
| C70 | Arc length tables are exact for polynomial speed | TableProofs.v | Taylor expansion of a polynomial is exact; uniqueness of antiderivatives |
| C71 | A Bezier curve is a well behaved curve in its length | Curves.v | C61, C64, C69 |
| C73 | The limits hold at every tick of a whole session | MachinePath.v | per call, the list of accelerations each channel follows, tick by tick; induction over sessions |
| C74 | A drawing is a session, and its limits | DrawCurves.v, PropsDraw.v | the calls of each run; C36 and C73; witness |
| C75 | A rastered image is exposed completely and exactly | ImageRaster.v, RasterProofs.v | list of lines with their start ticks; tick machine |
| C76 | Set-up of a raster scan: ranges and traps | ImageRaster.v, PropsRaster.v | range of casts and checked arithmetic; witnesses |
| C77 | Circle arcs are drawn as SVG prescribes, within limits | PathBuild.v, ArcProofs.v, PropsArc.v | centre and angles from the chord; composed with the circle curve of Curves.v |
| C78 | transform_ellipse gives exactly the image ellipse | PathBuild.v, ArcProofs.v, PropsArc.v | implicit forms, diagonalised by the half angle |
| C79 | Where arcs go wrong | PathBuild.v, PropsArc.v | displacement of the drawn arc against the wanted one |
| C80 | Lengths and view boxes | PathLex.v, PropsTransform.v | grammar; factor of the unit that follows |
| C81 | Reported drawing errors | PropsError.v | induction over ticks and runs; past of a stream is not changed by later calls |
| C82 | The svg_path program | SvgMain.v, FloatScale.v, PropsSvgMain.v | induction over passes; relative errors of binary64 products; concrete counterexamples |
| C83 | Positions along a curve are found | LinearCurve.v, PropsLinear.v | invariant on the tree of parts; a relation saying how queries grow the tree shows they are pure; errors of the lengths do not add up along the path |
| C84 | A command with several groups of arguments is the command repeated | PathBuild.v, PropsCommands.v | over R; induction on groups, equality of command lists |
| C85 | What the seven arguments of an arc mean | PathBuild.v, PropsCommands.v | over R; C77, C78 carried to the argument list |
| C86 | The last control point is kept but never used | PathBuild.v, PropsCommands.v | over R; non-interference |
| C87 | Values and derivatives of array polynomials | Polynom.v, PropsRoots.v | over R; refuted beyond 128 coefficients |
| C88 | Roots that are reported are roots | Polynom.v, PolynomProofs.v, PropsRoots.v | over R; intermediate values, induction on the degree, the loop over pieces as a relation |
| C89 | When all roots are reported | PolynomProofs.v, PropsRoots.v | over R; between separated extremes the polynomial is monotone (mean value theorem) |
| C90 | Where root finding fails | Polynom.v, PropsRoots.v | rational numbers are closed under bisection; in binary64 bisection reaches a fixed point |
| C91 | A printed Bezier segment draws the segment | SvgText.v, PropsSvgText.v | over R; printed digits against the number grammar |
| C92 | Animated plots are graphs of the planned speeds | Animate.v, PropsAnimate.v | from the planner's theorems |
| C93 | Lines and circles of bezier_as_arcs.rs | OldCode.v, PropsOld.v | over R; refuted for lines in the other order |
| C94 | Evaluation of accelerations and extend_dist in main_old.rs | OldCode.v, PropsOld.v | induction; over R; refuted above the maximum speed |
| C95 | Configuration files mean what their names say | Config.v, PropsConfig.v | from JSON values; refuted that every configuration can be used |
| C96 | Planned moves are short enough to store and near the shortest | PropsDuration.v | all long enough durations are offered by the planner |
| C97 | build_optimal_path is the fastest motion, with one exception | OldCode.v, PropsOldPath.v | motions by derivatives, mean value theorem; refuted for negative speeds |
| C98 | The program of main.rs prints a correct plan | MainProg.v, PropsMain.v | every i64 operation checked |
| C99 | The planner works for speeds beyond the limit at the ends | PropsSpeeds.v | extends C11 to C16 |
| C100 | Rounding in path building is bounded | FloatPath.v, FloatErr.v, FloatPathProofs.v, PropsFloatPath.v | compares the binary64 model with the one over R |
| C101 | Float evaluation of curves ends and stays on the curve | FloatPath.v, FloatCurve.v, PropsFloatCurve.v | any tables, any search results |
| C102 | Runs end at moves and bends and nowhere else | DrawPlan.v, PropsDrawPlan.v | exact: the division is unique |
| C103 | Wherever the laser burns, the machine is at the figure | DrawPlan.v, FloatRun.v, PropsLaser.v | bound in steps; lines, Bezier curves and circular arcs |
| C104 | From the commands of a path to the burned line | PropsLaser.v | C45, C100 and C103 together |
| C105 | Coordinates become steps by rounding, or are refused | PropsSteps.v | exact characterisation of the float conversion; round trip by the relative error of division and product |
| C106 | Every number of a path text is rounded exactly once | FloatLex.v, FloatLexProofs.v, PropsFloatLex.v | the two parsers are related combinator by combinator |
| C107 | From the text of a path to the burned line | PropsLaserText.v | C106 and C104 together |
| C108 | Rounding does not change which segments a document has | FloatDocument.v, FloatDocProofs.v, PropsFloatDoc.v | lock step of both models, for any values of sine, cosine and tangent |
| C109 | The rounding error of the transform of an attribute | FloatTransform.v, FloatAngles.v, PropsFloatTransform.v | error of a product of matrices by rows; digits of pi; Lipschitz bounds of sine, cosine and tangent; induction over the list |
| C110 | The direction along a Bezier curve is its tangent's | PropsDirection.v | error of the differences of de Casteljau's points, of lengths and of unit vectors; a cusp computed in the kernel |
| C111 | The rounding error of a whole document | FloatLength.v, FloatPlace.v, PropsFloatSvg.v | relative error of lengths and scales; a path under an inexact transform as the exact path moved; induction over the tree with the rest of the events as continuation |
| C112 | From the document to the burned line: the whole svg_path program | PropsLaserSvg.v | C111, C103 for each pass, frame lemmas for the later passes and the way home; an example run of the program from the document's text |
| C113 | The laser misses no part of a line or arc | FloatCover.v, PropsCover.v | for each point of a line or arc a tick that falls near it (C33 gives the burned run, C103 the place); the lost short line computed |
| C114 | The svg_path program misses no part of a line of the document, in any pass | PropsCoverSvg.v | C113 for each pass, the document near its exact figure (C111), frame lemmas for the later passes |
| C115 | The svg_path program from its command line to the serial line | Programs.v, EventProofs.v, PropsPrograms.v | independent grammar of option texts; case analysis of the program; an invariant of all queued events; C79-type facts about the conversation |
| C116 | The image_raster program from its command line to the serial line | Programs.v, EventProofs.v, PropsPrograms.v | as C115 |
| C117 | What svg_path does with a drawing speed that is not positive | PropsSpeed.v | signs of binary64 sums and quotients, C82 and C42 for the passes; existence of the zero speed drawing from C38 |
| C118 | Circle segments are near the circle, and drawings with arcs are burned where they should be | FloatCircle.v, PropsCircle.v | rounding errors of `CircleSegment` in binary64; C103 and C113 for lists with arcs; a quarter circle drawn in two ticks |
| C119 | Arcs of circles of a path in binary64 | FloatPath.v, FloatArc.v, FloatChord.v, PropsFloatArc.v | rounding errors of the whole arc code for unrotated circles; accepted, refused, end point, direction and span |
| C120 | What rounding does to arcs of circles | FloatPath.v, PropsFloatArc.v | computed counterexamples: a half circle refused, a rotated circle and a circle in inches that cannot be drawn |
| C121 | Whole paths with arcs of circles in binary64 | FloatPath.v, PropsFloatArcs.v | every segment against the exact path with lines for arcs, and the pen after any number of segments; from the text |
| C122 | From the text of a path with arcs of circles to the burned line | PropsLaserArcs.v | C121 joined with C118: what is burned is near the path, and the path is burned |
| C123 | The calls made by permutate! of permutate.rs | Permutate.v, PropsPermutate.v | expansion of the macro rules; induction on the vectors; mixed radix digits |
| C124 | build_optimal_int_path, check_path and the test of extend_dist in main_old.rs | OldRest.v, PropsOldRest.v | over R; returns nothing or panics; C97, C94, C123 |
| C125 | From a document whose paths have arcs of circles to the burned line | FloatParts.v, FloatRound.v, PropsRoundSvg.v | the document part by part (`fplace`); C121 for each part under the transform of its chain, moved to the exact transform; C118 for each pass |
| C126 | Arcs of circles that keep clear are read, arcs wider than their circle are refused | PropsArcsRead.v | sizes of the rounded chord against the rounded radius for every arc of the path (C119's errors); the document by induction over its tree |
| C127 | The assertions of the code's own tests hold for all inputs | PropsUnitTests.v | the specifications of the planner (C11 to C19), of find_root (C08) and of the ranges (C01 to C04); room for the adjustment from the strict bound in `good_path`; one representation of a set by induction |
| C128 | Ellipses in binary64, and circles that are stretched into ellipses | FloatPath.v, FloatEllipse.v, PropsFloatEllipse.v | rounding errors of the quadratic form, the order of its two entries decides between the two cases; radii that differ by more than EPSILON cannot be drawn (C41) |
| C129 | Drawings of lines within reach are carried through | DrawTotal.v, FloatTotal.v, PropsTotal.v | an invariant of the loop of draw_curves (state in bounds, open run known), sizes of all intermediate numbers in binary64, directions at most 1 + 16/2^53, or 5/4 when squares may vanish; C96 for the moves, C105 for the conversions |
| C130 | The svg_path program carries drawings of lines through | PropsProgramTotal.v | the invariant of C129 is closed under passes, since a drawing that starts with a move does not use where the machine stands unless it stands there; induction on the passes |
| C131 | Documents of lines go through the svg_path program | PropsDocTotal.v | C111 carries the sizes of the exact figure over to binary64, C130 without conditions near 0 does the rest |
| C132 | A document of one polyline is burned from end to end | PropsWhole.v | the invariant of C130 holds at the start of every pass and gives the hypotheses of C112 and C114; a skipped move is shorter than about half a step |
| C133 | Images are rastered to the end | RasterTotal.v, PropsRasterTotal.v | an invariant of the lines (head over the image, channels together, time bounded) and of the pixels of a line (coasting); with C75 for what is exposed |
| C134 | image_raster ends successfully and the image is exposed | PropsEnds.v | the steps of main before the device is used are computed from C133; with C67 for the exchange and C116 for what the controller does |
| C135 | svg_path ends successfully | PropsEndsSvg.v | as C134, from C131 with a bound on the duration |
| C72 | An arc given by its start direction has that direction and reaches its end | Curves.v | over R with atan2 in polar form |

## Curves over the reals

`Polynomials.v` and `Curves.v` use real numbers.  `powf` of the squared speed is
modelled by real powers, which is faithful where the squared speed is positive at
the Taylor centres; at a zero of the speed the source computes an infinity or a
NaN that the model does not have.  `slice::binary_search_by` is a function that
returns any result its contract allows (`search_ok`), quantified in the theorems.
The first Taylor centre in `build_segments` ignores the lower end of the range,
so `C70` is stated for ranges that start at 0, the only ones used.

`gauss_quadrature.rs` and `linear_curve.rs` are likewise modelled over the
reals. The printed tables are exact rationals. `LinearCurve` takes its curve as
an argument (the trait `CurveApprox`), so its theorems quantify over all curves
with a length function; the mutable tree is threaded through, and rust's
recursion is bounded by fuel, with a theorem saying when it ends.

## Curve following in binary64

`Floats.v` takes `+ - * /`, `sqrt`, comparisons, integer conversion, `round` and
saturating `as` casts from Flocq's `BinarySingleNaN`; NaN payloads and signs are
not modelled (the code does not observe them).  `ApproxCurve.v` and
`DrawCurves.v` model the code bit for bit in this arithmetic.  The curve is a
record of a length and a function that may panic.  In `DrawCurves.v` `Line` and
`ConcatCurve` are modelled in binary64 while Bezier and circle segments (which
need `powf`, `sin`, `cos`) are parameters of the theorems.  `FloatCircle.v` models
`CircleSegment::new`, `length` and `value` in binary64, with `sin_cos` as a
parameter of bounded error (`accurate`).

C103 joins these parts.  Its Bezier curves are those of `FloatPath.v`, for any
search results and any tables of polynomials (`fuel search ints`), so it says
nothing about how evenly a curve is run through.  What it takes from the missing
parts is stated as hypotheses: the search of `ConcatCurve` returns an index that
splits the sorted keys (`finds`), and the length of a Bezier curve is finite,
positive and at most 64 times the size of the drawing (`lengths_sane`).  Arcs enter
through `circle_near`, which C118 proves for `FloatCircle.v`; an arc is drawn as an
arc of a circle of its first radius (the code panics when the two differ).

## Rastering

`ImageRaster.v` starts from the decoded grey image (a list of rows) and the parsed
option values, and ends at the event stream (`image_main`).  Printing is left out,
but the checked arithmetic of the printed width and height, which can panic, is
kept.  `fits` (RasterProofs.v) is the range of scan numbers the planner supports
(accelerations to 32767, velocities to 2^20, sizes to 2^38 steps).

## Path building

`PathBuild.v` models the half of `svg_path_parser.rs` behind the lexer over the
real numbers: `build_path` for every command, with the arc code in full
(`transform_ellipse`, the chord, the angles).  Characters are unicode code
points (`Chars.v`).  Zero radii, where f64 gives infinities and NaN, are excluded
by hypothesis in the arc theorems.  An error is `Ok None`, a panic `Panic`; the
texts of errors are left out.

`FloatPath.v` models the same code a second time in binary64, arcs included, together
with `bezier_value`, `find_param` and `eval_int`; the Taylor tables (which need
`powf`) and the binary search are parameters there, as are `sin_cos`, `tan` and
`atan2` (`trig`).  C100 bounds the distance between the two models for paths without
arcs.  C119 is about arcs: `FloatArc.v` follows a circle through `transform_ellipse`,
`FloatChord.v` bounds the errors of the chord and of the angles.  The theorems ask two
things of the library functions: that they are exact at zero as IEEE 754 prescribes
(`zero_exact`: sin(+-0) = +-0, cos(+-0) = 1, atan2(+-0, y) = +-0 for y of positive
sign), and that atan2 is off by at most q / 2^53 (`angle_accurate`).  `known_trig`
(PropsCircle.v) is shown to satisfy both, and is the one the examples compute with.
C121 carries this through whole paths: it replaces every arc by the line between its
ends (`straight`), compares that path with the exact one by C100's bookkeeping, and
adds the errors of the arcs, which draw by angles and so do not return to the path.
C122 joins it with the drawing (C118), and C125 carries it through whole documents:
`FloatParts.v` splits what is read from a document into its paths, each under the transform
`fplace` of the elements above it, and `FloatRound.v` compares each path with the exact one
under the exact transform.
C126 says when the hypothesis of C121 and C125 that the text is read is met: it follows from the
exact chords and radii, with a margin for the rounding.
What C119, C121, C122, C125 and C126 leave out: ellipses, circles with a rotation of their own, and transforms
that rotate or skew (C120 shows what can go wrong there).
C128 covers the radii of unrotated ellipses under transforms that scale the two axes differently: such an
arc is accepted but can never be drawn.  It says nothing of the end points of such an arc, nor of rotated ones.
C129 (with C130 for the whole svg_path program, and C131 from the document on) shows that drawings come out, which the theorems on their accuracy take as a hypothesis; they cover lines and
moves only, not Bezier curves and arcs, whose directions need conditions of their own.
C132 puts C131 together with C112 and C114; it covers one polyline, since a later move may be skipped when it leads to where the
machine stood before the line before it was drawn (C114 asks for a bound on that).
C133 does for image_raster what C130 does for svg_path; its conditions are sufficient, and only the one on the scan speed is known to be necessary.
C134 carries C133 from the command line to the last reply of the controller, and C135 does so for svg_path and the documents of lines of C131; nothing of the kind is known for documents with curves.

## Path text

`PathLex.v` models the nom parsers of `svg_path_parser.rs` (numbers, commands,
transforms, view boxes, lengths) and `parse_path` on lists of code points,
combinator by combinator with the meaning nom 7 documents; kinds and positions of
errors are left out.  There `f64::from_str` gives the exact real value of the digits.
`FloatLex.v` models the same parsers in binary64: `f64::from_str` gives the nearest
number, infinity beyond the range; that is its documentation, how it finds it is not
modelled, and exponents of more than five digits, which it cuts off, are taken at
their value.  Sine, cosine and tangent of `rotate` and `skewX` are parameters (`trig`).
`PathGrammar.v` has the grammars the theorems compare with.

## SVG documents

`SvgDocument.v` models `parse_document` on the event stream of the XML reader
(xml-rs, trusted to deliver balanced events or an error) and the filter of
`--layer`.  Text of error messages and the prefix of names are left out; the
element filter is a pure function.  A view box or size of zero divides by zero:
infinities and NaN in the source, an unspecified factor in the model.
`FloatDocument.v` is the same in binary64, where that division is the source's.

## The svg_path program

`SvgMain.v` models `main` of `svg_path.rs` between the parsed options, the
configuration and the curve segments of the document on one side and the event
stream on the other: limits, weight, passes, the way home.  The segments are any
list in binary64.  `svg_program` (FloatDocument.v) puts the reading of the document
before it, so that it starts from the events of the XML reader.

## Roots of polynomials

`Polynom.v` models `curves/polynom.rs` once for any coefficients with the operations
of `PolynomCoef` and is used with the real numbers (C87 to C90) and with binary64
(the endless search of C90, and the inputs of the code's own tests).  No other code
of the crate uses it.  The unbounded loop of `find_single_root` has fuel.

## The code's own tests

`UnitTests.v` models the tests of integer_curve.rs, solve.rs and multi_range.rs: the
functions compiled for the tests only (`check_shortest_curve`, `ceil_idiv`,
`check_and` and others), their assertions and the loops that call them; what they
print is left out.  C127 proves the assertions for all inputs, not only those of the
loops, and that the tests pass.  It states one limit of a check: `find_root_check_limits`
would fail for a lower limit next to the vertex when both are zeros, which the test
does not try.  The tests of the other files compare floats with tolerances and are
not modelled as programs; some of their inputs are Examples beside the theorems.

## Printed paths, plots and unused files

`SvgText.v` models `to_svg_path` with the printer of numbers as a parameter; that
rust prints an f64 as a decimal number with its value is an assumption of C91 on that
printer (f64 prints the shortest text that reads back as the same f64).  `Animate.v`
models the numbers `animate_curve.rs` prints, not the text around them.  `OldCode.v`
models all of `bezier_as_arcs.rs` except its test traits, and it and `OldRest.v` the functions of
`main_old.rs` that compute a result; neither file is compiled into the crate.  Their integers are unbounded
(those of build_optimal_int_path checked) and their floats are real numbers.  `build_path` of
`main_old.rs` lacks a semicolon, so that file does not compile as it stands.  `Permutate.v` models the rules of
the macro `permutate!` as an expansion into loops with fresh variables, and what the loops call.

## Configuration

`Config.v` models what the serde derive of `stepper_config.rs` makes of a JSON value:
objects by field name (camel case, computed from the rust names), unknown names skipped,
repeated or missing names refused, arrays taken in field order, integers in range for
u32, integers rounded to f64.  The text of the file (serde_json's tokenizer) is not
modelled: a JSON value is an object, array, integer, float or something else, and its
integers are those of serde_json (i64 or u64) and its floats finite (`well_formed`).

## Programs

`Programs.v` models `main` of `svg_path.rs` and of `image_raster.rs` from the parsed options (the
value getopts gives for each option, the free arguments) to the end: files are functions from a
name to a JSON value, an XML event stream or a grey image, devices from a name to a port with a
script of answers.  The texts of the options are parsed as `f64::from_str` and `i32::from_str` do.
A message on the terminal is the outcome `Message`; its text is not modelled.

## Not modelled

The option parser getopts, the text of JSON files, the functions of `main_old.rs`
without a result, XML tokenisation (the xml-rs event
stream is the input of the model), image decoding, serial port set-up, debug printing.
