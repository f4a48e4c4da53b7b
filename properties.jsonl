{"id": "C01", "title": "Adding a range to a MultiRange is set union", "statement": "Starting from MultiRange::new() and applying any sequence of or()/or_slice() calls with low <= high, an integer x belongs to the result (some stored [low,high) contains it) exactly when it belonged to one of the added half-open ranges; the stored ranges always stay ordered, separated by a gap, and never inverted.", "quantifier": "all finite sequences of or/or_slice calls, all integers as bounds and as query point", "why_tests_cant": "The behaviour depends on how many existing ranges each new one touches; tests try a handful of layouts.", "anchors": ["src/multi_range.rs:MultiRange::or", "src/multi_range.rs:MultiRange::or_slice", "src/multi_range.rs:MultiRange::new"]}
{"id": "C02", "title": "Pruning a MultiRange with and() is set intersection", "statement": "For any well formed MultiRange r and low <= high, r.and(low,high) contains exactly the integers of r that are in [low,high), and the result is again ordered and disjoint.", "quantifier": "all well formed range lists, all bounds, all query points", "why_tests_cant": "Unbounded number of ranges and relative positions of the bounds.", "anchors": ["src/multi_range.rs:MultiRange::and"]}
{"id": "C03", "title": "and_range is intersection, and commutes", "statement": "For any two well formed MultiRanges, a.and_range(&b) contains exactly the integers contained in both, is well formed, and describes the same set as b.and_range(&a).", "quantifier": "all pairs of well formed range lists of any length", "why_tests_cant": "The merge loop advances two iterators with lookahead; correctness depends on arbitrary interleavings of the two lists.", "anchors": ["src/multi_range.rs:MultiRange::and_range"]}
{"id": "C04", "title": "bounds() is the tight hull and is_empty() is emptiness", "statement": "For a well formed MultiRange whose ranges are non-empty, bounds() is None exactly when no integer is contained, otherwise it is Some((l,h)) where l is contained, h-1 is contained and every contained x satisfies l <= x < h; is_empty() is true exactly when no integer is contained.", "quantifier": "all well formed range lists without empty ranges", "why_tests_cant": "Universal claim on every member of the set.", "anchors": ["src/multi_range.rs:MultiRange::bounds", "src/multi_range.rs:MultiRange::is_empty"]}
{"id": "C05", "title": "acc_push appends exactly the requested ticks", "statement": "Pushing (t,a) on an acceleration vector makes the tick by tick acceleration sequence it denotes longer by exactly t ticks of acceleration a and changes nothing else; a vector built only by acc_push never holds a zero length segment or two adjacent segments with the same acceleration; the only possible failure is a segment longer than 65535 ticks, which panics instead of silently losing ticks.", "quantifier": "all push histories", "why_tests_cant": "Merging with the last segment depends on the whole history.", "anchors": ["src/acc_vector.rs:AccVector::acc_push"]}
{"id": "C06", "title": "acc_distance equals tick by tick motion", "statement": "Whenever acc_distance(v0) returns, its result is the distance and final velocity obtained by executing the sequence one tick at a time (each tick: distance += v_before + v_after, v += acc); with overflow checks it can only fail by an explicit overflow panic, and it always returns when every velocity reached stays below 2^30 in magnitude and there are at most 65535 segments.", "quantifier": "all acceleration vectors (including zero length segments) and start velocities", "why_tests_cant": "A closed form per segment must agree with iteration for all lengths.", "anchors": ["src/acc_vector.rs:AccVector::acc_distance"]}
{"id": "C07", "title": "acc_iter(t) enumerates the remaining accelerations", "statement": "For a vector without zero length segments and with total length <= 65535, acc_iter(t) with t inside the vector yields exactly the accelerations of ticks t, t+1, ... in order and then ends; with t outside it panics. The single exception is t = 0 on a vector that is one segment of exactly 65535 ticks, where end - t + 1 overflows u16 and panics.", "quantifier": "all vectors without zero length segments, all start times", "why_tests_cant": "Needs every split position within every segment layout.", "anchors": ["src/acc_vector.rs:AccVector::acc_iter", "src/acc_vector.rs:AccIter::next"]}
{"id": "C08", "title": "find_root brackets the sign change of the quadratic", "statement": "For a convex quadratic p(x)=a x^2+b x-c (a>0) whose values at min and max have opposite sign or where one is zero, find_root returns Some(x) inside [min,max] with p(x) >= 0 where the neighbour toward the negative side is negative or p(x)=0; it returns None exactly when both end values are non-zero with the same sign; the bisection always terminates.", "quantifier": "all integer coefficients and brackets min <= max", "why_tests_cant": "Bisection over unbounded intervals with truncating midpoints including negative numbers.", "anchors": ["src/solve.rs:find_root", "src/solve.rs:sqpoly"]}
{"id": "C09", "title": "find_roots separates the solution set of a quadratic inequality", "statement": "For a>0, find_roots(a,b,c) returns None exactly when the discriminant b^2+4ac is negative; otherwise it returns (x1,x2), x1<=x2, with p>=0 at every integer <= x1 and at every integer >= x2, p<0 at every integer strictly between, x1 the floor of the lower real root and x2 the ceiling of the upper one, terminating for all coefficients.", "quantifier": "all integers a>0, b, c", "why_tests_cant": "Existing tests check particular coefficients only; doubling search and bisection depend on unbounded magnitudes.", "anchors": ["src/solve.rs:find_roots"]}
{"id": "C10", "title": "split_acc decomposes a velocity change", "statement": "split_acc(dv,a) with a>0 returns (t,adj) with t>=0, dv = sign(dv)*t*a + adj, |adj|<=a, adj has the sign of dv, and adj is zero only when dv is zero.", "quantifier": "all velocity differences and positive accelerations", "why_tests_cant": "Universally quantified arithmetic with truncating division.", "anchors": ["src/integer_curve.rs:split_acc"]}
{"id": "C11", "title": "A planned path can always be expanded to segments", "statement": "For every request ds, v0, vn, a>=1, vmax>=1 with |v0|,|vn|<=vmax (magnitudes in the supported range, duration at most 65535 ticks, a at most 32767) shortest_curve(...).acc_seq() does not panic: no assertion, unwrap, conversion or division fails and every loop terminates.", "quantifier": "all requests in the supported range", "why_tests_cant": "There are more than a dozen assertions and conversions guarded only by arithmetic invariants of the planner.", "anchors": ["src/integer_curve.rs:shortest_curve", "src/integer_curve.rs:adjust_curve", "src/integer_curve.rs:adjust_curve_mid", "src/integer_curve.rs:DistancePath::acc_seq"]}
{"id": "C12", "title": "A planned path reaches its target", "statement": "Executing shortest_curve(ds,v0,vn,a,vmax).acc_seq() tick by tick from velocity v0 takes exactly t_total ticks, ends at velocity vn, and covers a distance that differs from ds by at most 1; the distance is exactly ds whenever ds, v0+vn have the same parity.", "quantifier": "all requests in the supported range", "why_tests_cant": "The distance is closed by three different algebraic case splits plus a binary search; tests only sample it.", "anchors": ["src/integer_curve.rs:shortest_curve", "src/integer_curve.rs:DistancePath::acc_seq", "src/acc_vector.rs:AccVector::acc_distance"]}
{"id": "C13", "title": "A planned path respects the acceleration limit", "statement": "Every tick of the acceleration sequence planned by shortest_curve has |acceleration| <= a.", "quantifier": "all requests in the supported range, all ticks", "why_tests_cant": "Adjustment ticks are computed from remainders; a bound over all inputs cannot be sampled.", "anchors": ["src/integer_curve.rs:DistancePath::acc_seq", "src/integer_curve.rs:shortest_curve"]}
{"id": "C14", "title": "A planned path respects the speed limit", "statement": "At every tick of the sequence planned by shortest_curve the velocity v satisfies |v| <= vmax.", "quantifier": "all requests in the supported range, all ticks", "why_tests_cant": "The limit is enforced only indirectly by the choice of total time.", "anchors": ["src/integer_curve.rs:shortest_curve", "src/integer_curve.rs:shortest_curve_length", "src/integer_curve.rs:speed_limited_curve"]}
{"id": "C15", "title": "Coordinated axes arrive together", "statement": "shortest_curve_sequences(limits) returns one sequence per requested movement, all with the same total number of ticks, and each sequence individually ends at its own vn, within 1 of its own ds, within its own a and vmax.", "quantifier": "all non-empty finite lists of requests (any number of axes) in the supported range", "why_tests_cant": "Number of axes and all parameters are unbounded.", "anchors": ["src/integer_curve.rs:shortest_curve_sequences", "src/integer_curve.rs:PathLimits"]}
{"id": "C16", "title": "Every advertised duration is achievable", "statement": "Every duration t contained in shortest_curve_length(ds,v0,vn,a,vmax) admits an acceleration sequence of exactly t ticks within |acc|<=a and |v|<=vmax from v0 to vn covering ds to within one unit.", "quantifier": "all requests in the supported range and all t in the returned set", "why_tests_cant": "The returned set is infinite.", "anchors": ["src/integer_curve.rs:shortest_curve_length", "src/integer_curve.rs:max_acceleration_curve", "src/integer_curve.rs:speed_limited_curve"]}
{"id": "C17", "title": "shortest_curve is safe but not always shortest", "statement": "The documentation promises the shortest sequence. That promise is violated by an unbounded factor: for every speed v there is a supported request that one tick within the limits fulfils exactly, for which the returned path takes at least 4v-1 ticks. What does hold for every request: the returned duration is at least one tick and at least ceil(|vn-v0|/a), a bound that every competing sequence also obeys.", "quantifier": "all requests, all competing acceleration sequences of any length", "why_tests_cant": "Requires comparing against all possible sequences.", "anchors": ["src/integer_curve.rs:shortest_curve"]}
{"id": "C18", "title": "Rest to rest moves are at most one tick from optimal", "statement": "For v0 = vn = 0, every non-empty acceleration sequence within the limits that starts and ends at rest and covers ds (to within one unit) has at least t_total-1 ticks, where t_total is what shortest_curve returns. If t_total is even, or the distance is long enough for the planner to go at full speed (at least 2 vmax + 2 a q(q-1) with q = ceil(vmax/a)), no sequence covers exactly ds in fewer ticks. The one tick is really lost: for every k a move of 2 a k^2 that stays below vmax takes the planner 2k+1 ticks, while k ticks of +a and k ticks of -a do it in 2k.", "quantifier": "all ds, a, vmax in the supported range, all competing sequences of any length", "why_tests_cant": "Optimality quantifies over all competing sequences.", "anchors": ["src/integer_curve.rs:shortest_curve", "src/integer_curve.rs:max_acceleration_curve", "src/integer_curve.rs:speed_limited_curve"]}
{"id": "C19", "title": "DistancePath::distance is the distance travelled", "statement": "For every path returned by shortest_curve (or used for an axis by shortest_curve_sequences), distance() equals the distance obtained by executing acc_seq() tick by tick from v0.", "quantifier": "all requests in the supported range", "why_tests_cant": "distance() is a closed formula, acc_seq() a case analysis; equality must hold for all parameters.", "anchors": ["src/integer_curve.rs:DistancePath::distance", "src/integer_curve.rs:path_distance"]}
{"id": "C20", "title": "Mirrored requests take the same time", "statement": "shortest_curve(-ds,-v0,-vn,a,vmax) has the same t_total as shortest_curve(ds,v0,vn,a,vmax): a move and its mirror image take equally long, and the set of possible durations is the same.", "quantifier": "all requests in the supported range", "why_tests_cant": "Truncating division and half-open ranges are not symmetric, so symmetry is not evident.", "anchors": ["src/integer_curve.rs:shortest_curve_length", "src/integer_curve.rs:shortest_curve"]}
{"id": "C21", "title": "Overflow in the planner arithmetic", "statement": "Overflow checks never change a result of shortest_curve_length, shortest_curve, acc_seq or shortest_curve_sequences other than into a panic. For |ds| up to 2^40, speed limit and velocities (also beyond the limit) up to 2^20 and accelerations up to 32767: shortest_curve_length never overflows; adjust_curve and acc_seq do not overflow for a planned duration t with a*t^2 <= 2^58; and shortest_curve_sequences has the same outcome with overflow checks as with unbounded integers, so an overflow happens only where the sequence would be too long to be stored (u16 pieces) anyway. Storable requests (C96) are planned, expanded and measured without overflow. Refuted as first expected: adjust_curve can overflow inside the range, since its search bounds ignore the speed limit (ds = 2^26, at rest at both ends, a = 32767, vmax = 1).", "quantifier": "all requests in the stated magnitude range; for the first sentence all arguments with positive limits", "why_tests_cant": "Overflow happens at extreme combinations that sampled tests miss.", "anchors": ["src/integer_curve.rs:shortest_curve_length", "src/integer_curve.rs:adjust_curve", "src/integer_curve.rs:acc_seq", "src/integer_curve.rs:shortest_curve_sequences", "src/solve.rs:find_root"]}
{"id": "C22", "title": "The event stream reproduces the reported position", "statement": "After any history of successful StepperContext operations, a controller that executes the emitted events tick by tick (wait the given ticks, then change one channel's acceleration or the laser weight) is, when each channel has executed its ticks, exactly at position() with velocity().", "quantifier": "all operation histories (gotos, accelerations, weight changes, speed changes, event flushes, resets in any order), all parameters with segment lengths below 2^31 ticks", "why_tests_cant": "Needs every interleaving of two channels' segments and all histories.", "anchors": ["src/stepper_context.rs:StepperContext::add_acc_interval", "src/stepper_context.rs:StepperContext::acc_segs_to_events", "src/stepper_context.rs:StepperContext::step_goto_speed", "src/stepper_context.rs:StepperContext::speed", "src/stepper_context.rs:StepperContext::position", "src/stepper_context.rs:StepperContext::velocity"]}
{"id": "C23", "title": "Event deltas are chronological and never truncated", "statement": "In any history where weight changes are placed at the current time, every emitted event's tick delta is the true non-negative time difference to the previous event (no wrap to 32 bits, no underflow) and the deltas sum to the time of the last event.", "quantifier": "all operation histories", "why_tests_cant": "Truncating casts are silent; only a history invariant shows they lose nothing.", "anchors": ["src/stepper_context.rs:StepperEvent", "src/stepper_context.rs:StepperContext::add_acc_interval", "src/stepper_context.rs:StepperContext::add_weight_change"]}
{"id": "C24", "title": "Both channels stay synchronised", "statement": "After any history of operations other than speed(), both channels have executed the same number of ticks, so ticks() and events() do not panic.", "quantifier": "all operation histories without speed()", "why_tests_cant": "History invariant.", "anchors": ["src/stepper_context.rs:StepperContext::ticks", "src/stepper_context.rs:StepperContext::events", "src/stepper_context.rs:StepperContext::step_goto_speed"]}
{"id": "C25", "title": "step_goto arrives at rest at the target", "statement": "step_goto_speed(x,y,vx,vy) from any state whose velocities are within the limits succeeds whenever the planned duration fits 16 bits, which it does if a*|distance| + 8*vmax^2 < 2*a*vmax*65533 on both axes (C96), and leaves the context with velocity() == (vx,vy) and position() within one unit of (x,y) on each axis; a goto at rest to even distance is exact.", "quantifier": "all states reachable with velocities within limits, all targets with |vx|,|vy| within the limits", "why_tests_cant": "Combination of planner and context for all states.", "anchors": ["src/stepper_context.rs:StepperContext::step_goto_speed", "src/stepper_context.rs:StepperContext::step_goto"]}
{"id": "C26", "title": "The laser is off while moving to a position", "statement": "In the emitted event stream, the weight in force at every tick of a step_goto move is the move weight (0), whatever happened before.", "quantifier": "all prior histories, all gotos, all ticks of the move", "why_tests_cant": "Needs the value of the weight register at each tick for all histories.", "anchors": ["src/stepper_context.rs:StepperContext::step_goto_speed", "src/stepper_context.rs:StepperContext::add_weight_change"]}
{"id": "C27", "title": "The flushed stream stops the machine safely", "statement": "After events() the stream ends, at the final time, with laser weight 0 and zero acceleration on both channels; calling events() again only appends zero-delay repetitions that change nothing in the executed motion.", "quantifier": "all histories without desynchronised channels, any number of events() calls", "why_tests_cant": "History invariant; a sample cannot show idempotence in general.", "anchors": ["src/stepper_context.rs:StepperContext::events"]}
{"id": "C28", "title": "reset() forgets the past", "statement": "After reset(), any further sequence of operations yields the same events, position, velocity, ticks and failures as on a freshly created context with the same limits, scales and curve weight.", "quantifier": "all histories before the reset and all operation sequences after it", "why_tests_cant": "Quantifies over two unbounded histories.", "anchors": ["src/stepper_context.rs:StepperContext::reset", "src/stepper_context.rs:StepperContext::new"]}
{"id": "C29", "title": "speed() reaches the requested velocity but desynchronises the channels", "statement": "speed() brings each channel to exactly the requested velocity without exceeding the acceleration limit, and the emitted events reproduce it. It does not keep the context usable in general: there are states from which, after a successful speed(), ticks() and events() panic because the two channels needed different times.", "quantifier": "all states and target velocities", "why_tests_cant": "Depends on the velocity differences of both channels.", "anchors": ["src/stepper_context.rs:StepperContext::speed", "src/stepper_context.rs:StepperContext::ticks"]}
{"id": "C30", "title": "step_goto_speed checks the end velocity only from above", "statement": "A requested end velocity above the configured maximum is always rejected. A requested end velocity below minus the maximum is not: there is a state and request with |vx| > vmax that is accepted and executed, taking the machine beyond its speed limit.", "quantifier": "all requests", "why_tests_cant": "A missing one-sided check needs the negative case.", "anchors": ["src/stepper_context.rs:StepperContext::step_goto_speed"]}
{"id": "C31", "title": "Each event is accepted exactly once, in order, at its absolute time", "statement": "Whatever the controller answers and however replies are split or delayed, the commands it accepted during play_events are exactly the first k events in order, each with time = device time at start + 128 + sum of tick deltas up to it; if play_events returns Ok then k is the number of events.", "quantifier": "all event lists, all controller behaviours (any sequence of OK, queue-full and error replies), all read chunkings with timeouts", "why_tests_cant": "Unbounded interaction with an adversarial peer.", "anchors": ["src/stepper_control.rs:play_events", "src/stepper_control.rs:send_cmds"]}
{"id": "C32", "title": "A full queue is retried without loss or duplication", "statement": "When the controller answers queue-full (\"ERR 1\") any number of times, the same command with the same absolute time is sent again until another answer arrives, nothing after it is sent before it is accepted.", "quantifier": "all event lists and all reply sequences", "why_tests_cant": "Retry counts are unbounded.", "anchors": ["src/stepper_control.rs:play_events"]}
{"id": "C33", "title": "A controller error aborts and resets", "statement": "When the controller answers anything but OK or ERR 1, play_events sends a reset command, sends nothing more and returns an error; events after the failing one are never sent.", "quantifier": "all event lists, all positions of the error, all reply texts", "why_tests_cant": "Unbounded positions and reply strings.", "anchors": ["src/stepper_control.rs:play_events"]}
{"id": "C34", "title": "Commands survive the wire format", "statement": "The text written for a command list decodes uniquely back to the same commands with absolute times: no two different command lists produce the same bytes. A number is read exactly when its text is a decimal number with at most one sign in the range of i64, and then as that number.", "quantifier": "all command lists, all integer fields of either sign", "why_tests_cant": "Injectivity is a universal statement on pairs.", "anchors": ["src/stepper_control.rs:send_cmds"]}
{"id": "C35", "title": "Reply framing is independent of timing", "statement": "read_reply returns exactly the characters before the first newline, for every way of interleaving timeouts and empty reads, and leaves the rest of the input unread; on a hard error it reports the error; with an input that never delivers a newline it never returns.", "quantifier": "all byte streams and all interleavings of timeouts/empty reads", "why_tests_cant": "Unbounded schedules; non-termination cannot be tested.", "anchors": ["src/stepper_control.rs:read_reply"]}
{"id": "C36", "title": "Curve following never exceeds the speed limit", "statement": "If both channel velocities are within the limits before approx_curve, the machine is within the limits at every tick of the stream it emits, for every curve (including one returning NaN or infinite coordinates), start point, scale and drawing speed, in IEEE double arithmetic.", "quantifier": "all sessions within the limits before the call, all curves as arbitrary functions, all start points, speeds and scales, speed limits up to 2^31-1-32768, all ticks", "why_tests_cant": "Floating point inputs and the curve are arbitrary; NaN and saturating casts matter.", "anchors": ["src/stepper_context.rs:StepperContext::approx_curve"]}
{"id": "C37", "title": "Curve following can exceed the acceleration limit", "statement": "The acceleration emitted by approx_curve is not bounded by the configured maximum: the first tick of a straight line of length 1000 at speed 100 with limit 10 accelerates by 11, because the integrated position error is added without a limit. What holds for every curve: in tick k (from 0) the magnitude of the acceleration is at most the limit times 1 + (k+1)/16, plus 1/2.", "quantifier": "all sessions, curves, scales and speeds, acceleration limits up to 32767, all ticks", "why_tests_cant": "The excess only shows after error accumulates over several ticks.", "anchors": ["src/stepper_context.rs:StepperContext::approx_curve"]}
{"id": "C38", "title": "Curve following takes exactly the requested time", "statement": "approx_curve executes exactly round(length/v) one-tick intervals (0 if that is not positive, saturating at 2^31-1), independent of the shape of the curve and of position errors, and leaves both channels synchronised. The count is within 1/2+2^-23 of the real quotient; NaN gives 0 ticks. The call succeeds whenever the positions stay below 2^61 and the curve, where it is evaluated, below 2^62 steps; outside it may panic.", "quantifier": "all curves, speeds, states", "why_tests_cant": "Arbitrary function argument; loop count from a saturating float cast.", "anchors": ["src/stepper_context.rs:StepperContext::approx_curve", "src/stepper_context.rs:StepperContext::add_acc_interval"]}
{"id": "C39", "title": "The laser burns only along drawn curves", "statement": "After any session, in the event stream produced by a successful draw_curves the weight is what it was before at every tick before the call, the curve weight during exactly the ticks that follow a run of curves, and the move weight (0) during every positioning move and at every tick after the last run.", "quantifier": "all segment lists, all prior sessions, all curve geometry (any function as Bezier curve or circle segment), all ticks", "why_tests_cant": "Histories and segment lists are unbounded.", "anchors": ["src/stepper_context.rs:StepperContext::draw_curves", "src/stepper_context.rs:StepperContext::draw_curve"]}
{"id": "C40", "title": "draw_curves drops some GoTos", "statement": "A GoTo whose target is not (to the step) a place where the machine stands before the drawing or after one of its runs takes effect: the next curve starts there. Other GoTos can be dropped: from the origin, GoTo (1000,0), GoTo (0,0), LineTo (0,1000) burns a line from (1000,0); and LineTo (1000,0), GoTo (0,0), LineTo (0,1000) burns a diagonal from (1000,0) because the pending line has not been drawn when the GoTo is compared with the machine's place.", "quantifier": "all segment lists", "why_tests_cant": "Depends on the interaction between deferred drawing and machine position.", "anchors": ["src/stepper_context.rs:StepperContext::draw_curves"]}
{"id": "C41", "title": "Every drawable segment is drawn exactly once, in order", "statement": "A successful draw_curves groups the LineTo/CurveTo/Arc/CloseTo segments of its argument into consecutive non-empty runs; the concatenation of the runs that are drawn is exactly the sequence of those segments in order (except closing lines shorter than 1e-6), each run is drawn once, starts at the current place of its first segment, and no run continues over a bend whose cosine is below 0.99619. An elliptical arc in the list makes the call panic. A list of moves alone does not move the machine: the call reports no error and, unless the list is empty, only adds the change back to the move weight.", "quantifier": "all segment lists, contexts, scales, speeds and curve geometry", "why_tests_cant": "Unbounded lists with data dependent splitting.", "anchors": ["src/stepper_context.rs:StepperContext::draw_curves", "src/stepper_context.rs:curve_segment_to_info", "src/curves/concat_curve.rs:ConcatCurve"]}
{"id": "C42", "title": "find_row_interval returns the exact dark span of a row", "statement": "find_row_interval(image,row,filter) returns (start,len) such that every matching pixel of the row is in [start,start+len), and when len>0 both the first and last pixel of the interval match; it returns length 0 exactly when no pixel matches.", "quantifier": "all images, rows and filters", "why_tests_cant": "All widths and filter patterns.", "anchors": ["src/image_raster.rs:find_row_interval"]}
{"id": "C43", "title": "A raster line exposes each pixel with its own weight", "statement": "While a raster row is scanned (either direction), the laser weight in force during every tick of pixel n is (255-luma)*weight/256 of that pixel; on the way to the line and after it the weight is 0. If the scan's numbers are in the planner's range, the head is then between that pixel's borders, offset only by the positioning error of at most one step, on the line's y position and at the scan speed.", "quantifier": "all rows of pixels, both scan directions, all resolutions and all machine states", "why_tests_cant": "Weights are only emitted on change, so each pixel's weight depends on the history of the row.", "anchors": ["src/image_raster.rs:main", "src/stepper_context.rs:StepperContext::add_acc_interval", "src/stepper_context.rs:StepperContext::add_weight_change"]}
{"id": "C44", "title": "Relative and absolute path commands agree", "statement": "For every path command sequence (arcs included), replacing each relative command by the absolute command for the accumulated position yields the same segments, the same context and the same failures (exact arithmetic); a relative move that opens a path is absolute.", "quantifier": "all command sequences and all start positions", "why_tests_cant": "Requires tracking the current point through arbitrary command sequences.", "anchors": ["src/svg_path_parser.rs:build_path", "src/svg_path_parser.rs:parse_path"]}
{"id": "C45", "title": "Path building commutes with affine transforms", "statement": "Building a path without arcs under any affine transform gives the same context and the same failures as building it untransformed, and each segment is the transformed segment; the points drawn by a transformed segment are the images of the points drawn by the segment (exact arithmetic).", "quantifier": "all command sequences, all affine transforms", "why_tests_cant": "Universally quantified over programs and transforms.", "anchors": ["src/svg_path_parser.rs:build_path", "src/stepper_context.rs:CurveSegment::transform"]}
{"id": "C46", "title": "Malformed argument lists are rejected", "statement": "For move, line, vertical, horizontal, cubic and quadratic commands build_path succeeds exactly when the arguments are one or more complete groups, emits one segment per group and drops nothing: under a transform that keeps points apart the segments determine all arguments. Letters other than m l v h c q a z (in either case), among them SVG's smooth curves S and T, are always refused. A close command accepts any arguments and silently ignores them.", "quantifier": "all commands and argument lists (arcs excluded)", "why_tests_cant": "All argument counts.", "anchors": ["src/svg_path_parser.rs:build_path"]}
{"id": "C47", "title": "Quadratic curves are converted exactly", "statement": "The cubic segment emitted for each group of a quadratic or cubic command traces, for every parameter, exactly the Bezier curve of the SVG command after transformation, both as control polygon and through Bezier::bezier_value; moves, lines and closes go to the transformed points in order (exact arithmetic; relative commands by C44).", "quantifier": "all control points, transforms and curve parameters", "why_tests_cant": "Identity over a continuum of parameters.", "anchors": ["src/svg_path_parser.rs:build_path", "src/curves/bezier.rs:Bezier::bezier_value"]}
{"id": "C48", "title": "Number lexing follows the SVG number grammar", "statement": "The number parser consumes exactly the longest prefix that is [sign] digits [. digits] [exponent] (with a digit before or after the point) and returns its value; it fails exactly if no prefix is such a number; the conversion to f64 never rejects what the grammar accepted. Consequently it never splits a number in two and never reads past it, on every input.", "quantifier": "all input strings", "why_tests_cant": "Infinitely many strings.", "anchors": ["src/svg_path_parser.rs:number", "src/svg_path_parser.rs:floating_point_constant", "src/svg_path_parser.rs:exponent"]}
{"id": "C49", "title": "Compact SVG number lists are not accepted", "statement": "A path in which two numbers are separated only by a sign or a second point, such as M10-5 or M1.5.5, is valid SVG, but parse_path never succeeds on a text that contains such a place: it ends in an error or a panic. After any list of numbers directly followed by a sign the argument list ends; the outcome is an error if the arguments read so far do not fit the command and a panic if they do.", "quantifier": "all path strings", "why_tests_cant": "Grammar level claim.", "anchors": ["src/svg_path_parser.rs:path_command", "src/svg_path_parser.rs:parse_path"]}
{"id": "C50", "title": "parse_path always terminates and consumes its input", "statement": "parse_path ends on every text. A text that is a sequence of commands and white space builds exactly these commands in order, the sequence is determined by the text, and no other text succeeds (it gives an error or a panic).", "quantifier": "all strings", "why_tests_cant": "Termination over all inputs.", "anchors": ["src/svg_path_parser.rs:parse_path", "src/svg_path_parser.rs:path_command"]}
{"id": "C51", "title": "Transform lists compose left to right", "statement": "parse_transform of a list of transforms (matrix, translate, scale, rotate, rotate about a point, skewX, skewY in degrees, any white space allowed in a call) separated by commas or white space succeeds, and applying the result to a point applies the listed transforms from the last to the first; two lists joined by a separator give the product of their results; the reading of a text is unique (exact arithmetic).", "quantifier": "all transform lists of any length", "why_tests_cant": "Unbounded lists.", "anchors": ["src/svg_path_parser.rs:transforms", "src/svg_path_parser.rs:parse_transform"]}
{"id": "C52", "title": "parse_transform silently ignores trailing input", "statement": "parse_transform succeeds with M exactly if M is the composition of the longest list of transforms at the start of the text (after white space), and fails exactly if there is no transform there. Whatever follows is ignored: every text after a list that does not go on with a separator and a transform is dropped without an error, so scale(2)scale(3), and scale(2),,scale(3) which the SVG 1.1 grammar derives, yield scale(2).", "quantifier": "all attribute strings", "why_tests_cant": "Silent acceptance of unconsumed input.", "anchors": ["src/svg_path_parser.rs:parse_transform", "src/svg_path_parser.rs:transforms"]}
{"id": "C53", "title": "Each path is placed by the transforms of its ancestors", "statement": "For every document tree and filter, parse_document gives the result of visiting the elements in document order, each path built with the product of the initial transform and the transforms of its SVG ancestors and its own (transform attributes in order, then the viewBox scale of an svg element); siblings do not influence each other's transform, and if every drawn path starts with a move, as SVG demands, the drawing is the concatenation of what each path draws alone. Against expectation: the origin of a viewBox is ignored, so nothing is moved by it; a path that does not start with a move continues where the previous path ended, in that path's coordinates; and a file that breaks off (an XML error) is drawn up to there and reported as a success (exact arithmetic).", "quantifier": "all document trees and filters", "why_tests_cant": "Unbounded nesting; stack discipline over all event sequences.", "anchors": ["src/svg_parser.rs:parse_document"]}
{"id": "C54", "title": "Filtered elements contribute nothing", "statement": "If the element filter rejects an element, neither it nor any descendant contributes segments or influences later elements: the result equals that of the document with all rejected subtrees removed. The filter of --layer rejects exactly the SVG groups marked as Inkscape layers whose label is another one; so layers nested in the wanted layer are left out unless they have the same label, and paths outside of all layers are drawn.", "quantifier": "all document trees and filters", "why_tests_cant": "Unbounded nesting.", "anchors": ["src/svg_parser.rs:parse_document", "src/svg_path.rs:main"]}
{"id": "C55", "title": "Transform algebra", "statement": "Composition of transforms is associative with identity as unit and (a*b)*v = a*(b*v) for all points (exact arithmetic); translate/scale/rotate/skew act on points as named.", "quantifier": "all transforms and points", "why_tests_cant": "Universally quantified identities.", "anchors": ["src/coords.rs:Transform", "src/coords.rs:matrix_mul"]}
{"id": "C56", "title": "rotate_around fixes its pivot and is a rigid motion", "statement": "Transform::rotate_around(a,p) maps p to p, preserves distances between all points, and equals translate(p)*rotate(a)*translate(-p).", "quantifier": "all angles, pivots and points", "why_tests_cant": "Universally quantified over reals.", "anchors": ["src/coords.rs:Transform::rotate_around"]}
{"id": "C57", "title": "decompose recomposes except in one branch", "statement": "translate*rotate*scale*skewX*skewY of the parts returned by Transform::decompose is the original matrix for every transform whose first column is not shorter than 1e-6 (and for the matrices treated as zero). In the remaining branch the recomposition is characterised exactly and is in general wrong: there is a transform with a vanishing first column for which it differs, because the rotation is computed from the wrong entry.", "quantifier": "all transforms", "why_tests_cant": "The rarely used branch is wrong only for degenerate matrices.", "anchors": ["src/coords.rs:Transform::decompose"]}
{"id": "C58", "title": "CurveSegment transform acts on the drawn curve", "statement": "Transforming a line or cubic segment by CurveSegment::transform and drawing it from the transformed current position gives pointwise the transformed drawing of the original segment. A circular arc follows uniform scaling and translation, but not rotation: the stored rotation is ignored when the arc is drawn, and there is a quarter circle whose drawing after a quarter turn is not the turned drawing.", "quantifier": "all segments, transforms and parameters", "why_tests_cant": "Identity over a continuum.", "anchors": ["src/stepper_context.rs:CurveSegment::transform", "src/stepper_context.rs:curve_segment_to_info"]}
{"id": "C59", "title": "Lines and circle arcs have unit direction and start at the origin", "statement": "For Line and CircleSegment, value(0) is the origin, the reported direction is the derivative of the position with unit length at every position, value(length()) is the end point, and the distance along the curve equals the parameter.", "quantifier": "all end points, radii>0, angles and positions", "why_tests_cant": "Continuum of positions.", "anchors": ["src/curves/line.rs:Line", "src/curves/circle_segment.rs:CircleSegment"]}
{"id": "C60", "title": "Bezier split reproduces the curve", "statement": "BezierSegment::split(t) returns two segments that trace exactly the same points as the original on [0,t] and [t,1], for all t and all parameters.", "quantifier": "all control points, split positions and parameters", "why_tests_cant": "Polynomial identity over a continuum.", "anchors": ["src/curves/bezier_curve.rs:BezierSegment::split", "src/curves/bezier_curve.rs:BezierSegment::point"]}
{"id": "C61", "title": "Bezier evaluation agrees with the power basis", "statement": "Bezier::bezier_value(t) is the point of the polynomial given by coefficients_from_control (and of the Bernstein form), the speed polynomial used for the arc length is exactly the squared norm of the derivative, and the reported direction is the unit vector along the derivative wherever the speed is at least 6e-9.", "quantifier": "all control points and parameters", "why_tests_cant": "Polynomial identity over a continuum.", "anchors": ["src/curves/bezier.rs:Bezier::bezier_value", "src/curves/bezier.rs:coefficients_from_control", "src/curves/bezier.rs:deriv_from_coefficients", "src/curves/bezier.rs:Bezier::new"]}
{"id": "C62", "title": "Concatenated curves are continuous and ordered", "statement": "ConcatCurve::value at a position in the k-th curve's length interval is that curve's value shifted by the end point of the preceding ones; at the joints both neighbours agree; length() is the sum of the lengths.", "quantifier": "any number of curves of non-negative length starting at the origin, all positions", "why_tests_cant": "Unbounded number of curves, all positions.", "anchors": ["src/curves/concat_curve.rs:ConcatCurve::add", "src/curves/concat_curve.rs:ConcatCurve::value", "src/curves/concat_curve.rs:ConcatCurve::length"]}
{"id": "C63", "title": "Polynomial helpers compute what they are named for", "statement": "For all polynomials and arguments: polymul evaluates to the product, polyadd to the sum, polyoffset(p,c) at t equals p(t+c), polyder is the derivative, polyint an antiderivative that vanishes at 0, and polyweight interpolates its two arguments (exact arithmetic, non-empty arguments, degree below 19 for polyoffset because binomials are 16 bit).", "quantifier": "all coefficient lists and arguments", "why_tests_cant": "Unbounded degree and continuum of arguments.", "anchors": ["src/curves/sqrt_poly.rs:polymul", "src/curves/sqrt_poly.rs:polyadd", "src/curves/sqrt_poly.rs:polyoffset", "src/curves/sqrt_poly.rs:polyder", "src/curves/sqrt_poly.rs:polyint", "src/curves/sqrt_poly.rs:polyweight"]}
{"id": "C64", "title": "Arc length tables are continuous", "statement": "The piecewise polynomial length table built for a curve is continuous at every knot: each segment's value at its end equals the next segment's start value, and the first is 0, whatever the polynomial.", "quantifier": "all speed polynomials, all numbers of segments", "why_tests_cant": "Unbounded number of pieces.", "anchors": ["src/curves/sqrt_poly.rs:build_segments", "src/curves/sqrt_poly.rs:eval_int"]}
{"id": "C65", "title": "Gauss quadrature integrates polynomials and what is near one", "statement": "For every n from 2 to 8, every interval and every function f with antiderivative F that lies within delta of a polynomial of degree below 2n on the interval, gauss_quad_integrate differs from F(b) - F(a) by at most |b-a|/2 times (e S + (4+e) delta), where S is the sum of the absolute coefficients of the polynomial moved to [-1,1] and e is what the printed coefficients are off by: 1e-10 for 2 and 3 points, 3e-16 for the others. The degree is sharp: t^(2n) over [-1,1] comes out at least 1/25000 short. Only values strictly inside the interval count, a larger function never gives a smaller result, exchanging the ends changes the sign, and any other n panics. The printed abscissas are, in order, all the roots of the Legendre polynomial of degree n, and the printed weights those that belong to them, each to within 5e-11 for 2 and 3 points and 7e-17 for the others.", "quantifier": "all functions, polynomials up to degree 2n-1, intervals, n", "why_tests_cant": "Continuum of functions and intervals; the tests try two functions with a tolerance of 1e-4, a million times the error proved here.", "anchors": ["src/gauss_quadrature.rs:gauss_quad_integrate"]}
{"id": "C66", "title": "Direction tests on vectors", "statement": "diff_sign is positive exactly when the other vector is clockwise within half a turn, rotate_90_cw and rotate_90_ccw are inverse isometries perpendicular to the argument, and angle_cos is the cosine of the angle (between -1 and 1, 1 exactly for parallel vectors). The documentation of diff_sign in terms of angle() holds only while the angles differ by less than half a turn: across the negative x axis it is wrong.", "quantifier": "all non-zero vectors", "why_tests_cant": "Continuum.", "anchors": ["src/coords.rs:Vector::diff_sign", "src/coords.rs:Vector::rotate_90_cw", "src/coords.rs:Vector::angle_cos"]}
{"id": "C67", "title": "Playing a stream ends successfully when the controller cooperates", "statement": "If the controller answers the time request with a number and each command with finitely many queue-full answers followed by OK, play_events returns Ok, however the answers are split into reads and delayed by timeouts, after at most as many reads as there are read results; no deadlock and no lost wake-up is possible.", "quantifier": "all event lists, all retry counts per command, all interleavings of timeouts and empty reads", "why_tests_cant": "Liveness over unbounded schedules.", "anchors": ["src/stepper_control.rs:play_events", "src/stepper_control.rs:read_reply"]}
{"id": "C68", "title": "Taylor coefficients of the speed are the derivatives", "statement": "taylor_sequence(p,t0,n) returns n numbers, the k-th of which is the k-th derivative of sqrt(p) at t0 divided by k!, for every polynomial of degree at least one that is positive at t0; for a constant polynomial and n>=3 it panics.", "quantifier": "all polynomials, expansion points and numbers of coefficients (exact arithmetic)", "why_tests_cant": "Unbounded number of derivatives of an arbitrary polynomial at a continuum of points.", "anchors": ["src/curves/sqrt_poly.rs:taylor_sequence", "src/curves/sqrt_poly.rs:DiffSqrtPoly"]}
{"id": "C69", "title": "find_param inverts the arc length table", "statement": "For every table built from 0 to 1 and every length between 0 and the table's total, find_param terminates within 52 halvings without panic and returns a parameter t in [0,1] such that the table brackets the length between t and some t' at most f64::EPSILON above t, whichever index the binary search returns.", "quantifier": "all speed polynomials, all numbers of segments, all lengths, all admissible binary search results", "why_tests_cant": "Continuum of lengths, adversarial binary search results on equal keys.", "anchors": ["src/curves/sqrt_poly.rs:find_param", "src/curves/sqrt_poly.rs:eval_int"]}
{"id": "C70", "title": "Arc length tables are exact for polynomial speed", "statement": "If the squared speed is the square of a positive polynomial of degree at most 6 on the range [0,high], the table's value at every parameter is exactly the integral of that polynomial from 0.", "quantifier": "all such polynomials, ranges, numbers of segments and parameters (exact arithmetic)", "why_tests_cant": "Continuum of polynomials and parameters.", "anchors": ["src/curves/sqrt_poly.rs:build_segments", "src/curves/sqrt_poly.rs:eval_int"]}
{"id": "C71", "title": "A Bezier curve is a well behaved curve in its length", "statement": "For a cubic whose speed is positive at the Taylor centres: Bezier::new never panics; length() and value() never panic; value(pos) is the origin for pos<=0, the end point for pos>=length(), and in between the Bezier point of a parameter at which the length table reaches pos within f64::EPSILON of parameter. (Where the speed vanishes at a centre the source computes with NaN, which exact arithmetic does not have.)", "quantifier": "all control points, all positions, all admissible binary searches (exact arithmetic)", "why_tests_cant": "Continuum of curves and positions.", "anchors": ["src/curves/bezier.rs:Bezier::new", "src/curves/bezier.rs:length", "src/curves/bezier.rs:value"]}
{"id": "C72", "title": "An arc given by its start direction has that direction and reaches its end", "statement": "CircleSegment::new_start_direction(end, direction) starts at the origin along the given direction, moves at unit speed and ends exactly at the given end point after less than a full turn, whenever the direction is not parallel to the line to the end point.", "quantifier": "all end points and non-parallel directions", "why_tests_cant": "Continuum of arcs with four quadrant and winding cases.", "anchors": ["src/curves/circle_segment.rs:CircleSegment::new_start_direction"]}
{"id": "C73", "title": "The limits hold at every tick of a whole session", "statement": "From power-up, after any sequence of goto, speed, acceleration interval, weight and flush calls within the documented conditions, the machine that plays the stream is within the speed limit of each axis at every tick; and if every acceleration interval is within the acceleration limit, each acceleration in effect is too. A call outside the conditions (a negative end speed below the limit, which is accepted) leaves the limits.", "quantifier": "all sessions (call sequences), limits and ticks", "why_tests_cant": "Unbounded sessions and every intermediate tick rather than the end states.", "anchors": ["src/stepper_context.rs:StepperContext::step_goto_speed", "src/stepper_context.rs:StepperContext::add_acc_interval", "src/stepper_context.rs:StepperContext::step_speed"]}
{"id": "C74", "title": "A drawing is a session, and its limits", "statement": "Every successful draw_curves has the effect of a session of weight changes at the current time, goto_speed calls and one-tick accelerations, without resets, so the theorems about sessions apply to drawings. If each run's start place and start speed meet the documented conditions of goto_speed, the machine keeps the speed limits at every tick. The code does not check the start speed in the negative direction: a line to the left faster than the limit is drawn at that speed, while the same line to the right panics.", "quantifier": "all segment lists, prior sessions, scales, speeds and curve geometry", "why_tests_cant": "Unbounded segment lists and sessions, arbitrary geometry; the limit must hold at every tick.", "anchors": ["src/stepper_context.rs:StepperContext::draw_curves", "src/stepper_context.rs:StepperContext::draw_curve", "src/stepper_context.rs:StepperContext::goto_speed"]}
{"id": "C75", "title": "A rastered image is exposed completely and exactly", "statement": "For a successful raster of an image: the weight at every tick is that given by the dark spans of the rows in order, res_y lines per row, alternating in direction, and 0 elsewhere and afterwards. With the scan's numbers in the planner's range, whenever the laser is on the head is over a pixel of the image that has that weight (to one step); every pixel that is not white is exposed for res_x ticks on each of its res_y lines; at the end the head is back at the origin at rest; and the speed limits hold at every tick.", "quantifier": "all images, scan parameters and prior sessions", "why_tests_cant": "All images and resolutions; each line depends on the position error and direction left by the one before, and the claim is about every tick.", "anchors": ["src/image_raster.rs:main", "src/image_raster.rs:find_row_interval", "src/stepper_context.rs:StepperContext::step_goto_speed"]}
{"id": "C76", "title": "Set-up of a raster scan: ranges and traps", "statement": "Whenever the scan parameters are computed without panic, res_x is at least 1, the scan speed is not negative and sizes are below 2^32 steps, so C75 applies to the program under conditions on the configuration only; an image with a dark pixel is drawn only if the scan speed is within the limit; weights are between 0 and 253 and darker pixels are never weaker. Against expectation: when a pixel is smaller than half the spot nothing is drawn at all, silently (with the repository's configuration and no options every 300x300 image); a scan speed that rounds to 0 burns the whole image on one column of steps; an axis with negative steps per millimetre always panics; and the acceleration limit of the y axis is computed from the x axis's steps per millimetre.", "quantifier": "all configurations, options, image sizes and images", "why_tests_cant": "The claims are over all images and all binary64 configuration values.", "anchors": ["src/image_raster.rs:main"]}
{"id": "C77", "title": "Circle arcs are drawn as SVG prescribes, within limits", "statement": "For an arc of a circle with rotation 0 under a transform that is a similarity: build_path refuses it exactly when its end points coincide or are further apart than the diameter (SVG would draw nothing or scale the circle up); otherwise the curve the drawing code follows is, at every fraction of its length, the image of the one circle arc the end points, radius and flags determine, with the sweep flag inverted when the transform mirrors.", "quantifier": "all radii, end points, flags, similarity transforms and positions along the arc", "why_tests_cant": "Continuum of arcs and transforms; the code picks centre and angles by case analysis.", "anchors": ["src/svg_path_parser.rs:build_path", "src/curves/circle_segment.rs", "src/stepper_context.rs:curve_segment_to_info"]}
{"id": "C78", "title": "transform_ellipse gives exactly the image ellipse", "statement": "For non-zero radii, transform_ellipse panics exactly when the transform is flat (determinant 0); otherwise the ellipse it returns is, as a set of points, exactly the image of the given ellipse, with the longer radius first and a rotation in (-pi/2, pi/2].", "quantifier": "all radii, rotations and linear maps", "why_tests_cant": "Equality of two curves for a continuum of parameters.", "anchors": ["src/svg_path_parser.rs:transform_ellipse"]}
{"id": "C79", "title": "Where arcs go wrong", "statement": "The displacement of every accepted arc is the wanted one turned by the sum of the argument's and the transformed ellipse's rotation, so it is right only if that sum is a multiple of a full turn: a circle arc with a rotation argument ends elsewhere, an upright ellipse taller than wide ends a quarter turn away from its end point, and under a mirroring transform circle arcs bulge to the wrong side.", "quantifier": "all arcs and transforms of the stated kind", "why_tests_cant": "The existing test checks ellipses only through transform_ellipse; the turn depends on all parameters.", "anchors": ["src/svg_path_parser.rs:build_path"]}
{"id": "C80", "title": "Lengths and view boxes are read as a prefix", "statement": "parse_length succeeds exactly on white space, the longest number and optional white space, and returns the number times the factor of the unit that follows: mm 1, cm 10, in 25.4, px 1 (a pixel counts as a millimetre, not 1/96 inch), pt 25.4/72, pc 25.4/6. Any other text in place of the unit, such as em or %, is ignored and the number is taken as millimetres. parse_view_box succeeds only on four numbers with separators after white space and returns them, ignoring what follows (exact arithmetic).", "quantifier": "all texts", "why_tests_cant": "Infinitely many strings, silent acceptance of unknown units.", "anchors": ["src/svg_path_parser.rs:physical_length", "src/svg_path_parser.rs:length_unit", "src/svg_path_parser.rs:parse_length", "src/svg_path_parser.rs:parse_view_box"]}
{"id": "C81", "title": "The reported drawing errors are those of the machine", "statement": "The error approx_curve returns for an axis is exactly the largest distance, over the ticks of the curve, between the place of the machine playing the emitted stream and the place of the curve at that tick (in steps, truncated). draw_curves returns the largest over all its runs; within a run a place is that of the curve found for the position, at the position less the length before it, moved to the end of the curves before it.", "quantifier": "all sessions, curves, segment lists, scales and speeds, any geometry of Bezier curves and arcs, all ticks", "why_tests_cant": "A wrong maximum or a wrong offset only shows with several curves whose errors differ; the claim is about every tick of an arbitrary curve.", "anchors": ["src/stepper_context.rs:StepperContext::approx_curve", "src/stepper_context.rs:StepperContext::draw_curves", "src/curves/concat_curve.rs:ConcatCurve::value"]}
{"id": "C82", "title": "The svg_path program burns only the document's curves, goes home and stops", "statement": "For every geometry, configuration, options and non-empty segment list for which the program ends: the document is drawn n_repeat times; at every tick the laser has the weight intensity*254/100 (0..254, less than 1 off) while a run of some pass is followed and 0 otherwise; the printed errors are those of the last pass on the machine; if the machine may go back from where it ends (goto's documented conditions) it ends, stays and rests within a step of the origin, and if the runs meet these conditions too, the speed limits hold at every tick. The limits are the configured ones in half steps per tick, rounded (configuration) or cut off (options). Expected but false: errors of earlier passes are not reported; a drawing speed above the maximum is not rejected but panics or is driven, depending on the direction; options giving no acceleration or a negative velocity are accepted; a configuration with zero ticks per second always panics.", "quantifier": "all configurations, options, segment lists, pass counts, any geometry of Bezier curves and arcs, all ticks", "why_tests_cant": "The claim is about every tick of the whole stream for arbitrary drawings and pass counts; the unchecked speed depends on the direction of a line.", "anchors": ["src/svg_path.rs:main", "src/stepper_context.rs:StepperContext::draw_curves", "src/stepper_context.rs:StepperContext::events"]}
{"id": "C83", "title": "Positions along a curve are found", "statement": "For a LinearCurve over any curve that splits its parts inside them and reports lengths within a factor eta: the length is that of the curve within eta; position(p) for 0 <= p <= length gives a parameter of the curve at which the curve is p long within 0.00001 plus 3 eta times the length, whatever was asked before; p up to 0.00001 gives exactly the start and p within 0.00001 of the length or beyond exactly the end; answers do not depend on earlier questions although the tree is changed by them; a larger p never gives an earlier parameter. If parts shrink by a factor and short parts are measured, building and every query end, within a bound independent of the query; a curve that never reports a length is measured for ever.", "quantifier": "all curves, lengths, sequences of queries, positions", "why_tests_cant": "The tests use one straight line with one split factor; the answer depends on the tree built by all earlier queries.", "anchors": ["src/curves/linear_curve.rs:node_length", "src/curves/linear_curve.rs:node_pos", "src/curves/linear_curve.rs:LinearCurve"]}
{"id": "C84", "title": "A command with several groups of arguments is the command repeated", "statement": "For line, horizontal, vertical, cubic, quadratic and arc commands, absolute or relative, a path in which one command has the argument groups g1 g2 builds exactly what the path with the command written twice builds (context, segments, errors and panics alike); the pairs of a move-to after the first are those of a line-to of the same case.", "quantifier": "all contexts, argument lists, following commands and transforms", "why_tests_cant": "The tests use few groups; that no state leaks from one group into the next is about every split of every list.", "anchors": ["src/svg_path_parser.rs:build_path"]}
{"id": "C85", "title": "What the seven arguments of an arc mean", "statement": "An arc command is refused unless it has complete groups of seven. With equal radii and rotation 0, under a similarity, the fourth argument not 0 means the large arc, the fifth not 0 growing angles (reversed by a mirroring transform), the last two the end point (counted from the current point for the relative form): the arc drawn is the SVG arc with these data from the current point, and it is refused exactly if the end is the current point or further away than the diameter. In general the arc lies on the image under the transform of the ellipse with the first two arguments as radii turned by the third in degrees.", "quantifier": "all contexts, arguments, similarity transforms (circle) and transforms (ellipse)", "why_tests_cant": "The order of the flags and the unit of the rotation only show in the drawn curve.", "anchors": ["src/svg_path_parser.rs:get_arc_args", "src/svg_path_parser.rs:build_path"]}
{"id": "C86", "title": "The last control point is kept but never used", "statement": "After a cubic command the context holds the second control point of its last curve, after a quadratic the second control point of the cubic equal to its last curve, after moves and straight lines none; arcs and closing leave it. No segment, current point, start point, error or panic of any command list depends on it (smooth commands do not exist: C46_unknown refuses them).", "quantifier": "all contexts, command lists and transforms", "why_tests_cant": "That a value is never used is about all continuations.", "anchors": ["src/svg_path_parser.rs:build_path", "src/svg_path_parser.rs:PathContext"]}
{"id": "C87", "title": "Values and derivatives of array polynomials", "statement": "The value of a polynomial of polynom.rs is the sum of its first n coefficients times powers of t for 1 <= n <= N and a panic otherwise; deriv gives the derivative for 1 <= N <= 128. For N = 129 it does not: the factor is cast to 8 bits and becomes -128 (C87_deriv_refuted).", "quantifier": "all coefficient lists, real arithmetic", "why_tests_cant": "Derivatives are limits; coefficients and lengths are unbounded.", "anchors": ["src/curves/polynom.rs:value", "src/curves/polynom.rs:deriv"]}
{"id": "C88", "title": "Roots that are reported are roots", "statement": "For a polynomial with at most 128 coefficients that is not 0 everywhere and a range lo <= hi, real_roots ends after as many halvings as bring the range down to 10 epsilon, without a panic; the roots it reports are fewer than the coefficients, ascending, more than 10 epsilon apart, in the range and within 10 epsilon of a root in the range. The polynomial 0 is reported to have the one root 0, even outside the range (C88_zero).", "quantifier": "all coefficient lists and ranges, real arithmetic", "why_tests_cant": "All polynomials of all degrees.", "anchors": ["src/curves/polynom.rs:find_single_root", "src/curves/polynom.rs:find_roots", "src/curves/polynom.rs:Polynom::real_roots"]}
{"id": "C89", "title": "When all roots are reported", "statement": "If no root, in the range, of the polynomial or one of its derivatives is within 20 epsilon of an end of the range or of a root of the next derivative, real_roots reports every root in the range once, within 10 epsilon, in order, and nothing else.", "quantifier": "all coefficient lists of at most 128 coefficients and ranges, real arithmetic", "why_tests_cant": "Completeness is a statement about all roots of all polynomials.", "anchors": ["src/curves/polynom.rs:find_roots", "src/curves/polynom.rs:Polynom::real_roots"]}
{"id": "C90", "title": "Where root finding fails", "statement": "The expectation that real_roots finds all roots and ends is refuted: a linear polynomial loses a root at an end of the range; the double roots of (x^2 - 2)^2 on [-2, 2] are not found even with exact arithmetic, whatever the number of halvings; and in binary64 the roots of x^2 - 300 on 0..=100 are searched for ever, because neighbouring numbers there are more than 10 epsilon apart.", "quantifier": "all fuel", "why_tests_cant": "An endless loop is a statement about every number of steps.", "anchors": ["src/curves/polynom.rs:find_single_root", "src/curves/polynom.rs:find_roots", "src/curves/polynom.rs:close_to_zero"]}
{"id": "C91", "title": "A printed Bezier segment draws the segment", "statement": "If every number of a segment is printed as a decimal number with its value, the text of to_svg_path is accepted by the path parser and draws exactly the segment from the current point, under any transform; from the origin the fields of the segment come back; and the texts of the two halves of a split segment, one after the other, draw the whole segment. Decimal fractions printed the way Display prints f64 (sign, digits, point, digits) are numbers with their value.", "quantifier": "all segments, printers, contexts, transforms and split points, real arithmetic", "why_tests_cant": "Segments, positions and number texts are unbounded.", "anchors": ["src/curves/bezier_curve.rs:to_svg_path", "src/svg_path_parser.rs:path_command"]}
{"id": "C92", "title": "Animated plots are graphs of the planned speeds", "statement": "For start and end speed at most vmax and acceleration at most 32767, every plot of animate_curve, as long as the planned move takes at most 65535 ticks, starts at (0, v0), ends at (total time, vn), and is the graph of the speed under legal accelerations; twice the area under it differs from the distance by at most 1. If vmax is at most 16374 times the acceleration, all planned moves are short enough, and the whole animation has one such plot for each distance from -70 to 69, in order.", "quantifier": "all speeds and accelerations in the stated range", "why_tests_cant": "All planner inputs.", "anchors": ["src/animate_curve.rs:main"]}
{"id": "C93", "title": "Lines and circles of the unused bezier_as_arcs.rs", "statement": "A point returned by intersection is the only common point of the two lines, and one is returned exactly if the cross product of their directions exceeds epsilon. The comment 'Return None if they are parallel' is refuted: whenever a point is returned, the same lines in the other order give None. incenter_point of a proper triangle is inside it and equally far from the lines through its sides. fit_circle says Line exactly if the points are on a line through the origin; otherwise the circle passes through the origin and both points, is the only one that does, and is Ccw exactly if the second point is to the left of the first.", "quantifier": "all points, real arithmetic", "why_tests_cant": "Uniqueness is a statement about all other points; inputs are real.", "anchors": ["src/curves/bezier_as_arcs.rs:intersection", "src/curves/bezier_as_arcs.rs:incenter_point", "src/curves/bezier_as_arcs.rs:fit_circle"]}
{"id": "C94", "title": "Evaluation of accelerations and extend_dist in the unused main_old.rs", "statement": "eval_acc_seq and eval_acc_seq2 agree for all sequences and give the start plus the distance travelled, and the final speed (unbounded integers). For s >= 0, a > 0 and vmax > 0, accelerating for dta, keeping the speed for dtc and decelerating for dta covers s and returns to the start speed; the top speed is at most vmax, and is vmax if dtc > 0; dtc is never negative. That the times are never negative is refuted: dta is negative exactly if the start speed is above vmax.", "quantifier": "all sequences; all real s, v, a, vmax in the stated range", "why_tests_cant": "Sequences have any length.", "anchors": ["src/main_old.rs:eval_acc_seq", "src/main_old.rs:eval_acc_seq2", "src/main_old.rs:eval_acc_time", "src/main_old.rs:extend_dist"]}
{"id": "C95", "title": "Configuration files mean what their names say", "statement": "A JSON value is read as a configuration exactly if it is an object with each of ticksPerSecond, stepperX, stepperY and laser exactly once (or an array of the four in order), these being objects of the same kind with the camel case names of the fields, counts being integers from 0 to 2^32-1 and measures being numbers; the configuration then has these values. The order of entries does not matter and unknown entries are ignored. Every number of a configuration read is finite. Writing a configuration and reading it back gives the same one exactly if its floating point numbers are finite. That a configuration that is read can be used is refuted: with ticksPerSecond 2^31 the computation of the limits overflows in both programs.", "quantifier": "all JSON values and configurations", "why_tests_cant": "All JSON values; the shipped files exercise one shape.", "anchors": ["src/stepper_config.rs:Config", "src/stepper_config.rs:StepperConfig", "src/stepper_config.rs:LaserConfig"]}
{"id": "C96", "title": "Planned moves are short enough to store, and near the shortest possible", "statement": "The planned duration T of a single axis satisfies 2*a*vmax*(T-3) <= a*|ds| + 8*vmax^2. It exceeds the duration of any movement that keeps the limits and covers the distance by at most (4*vmax + 4*a)/a ticks, and the order of this bound is reached: for ds = 2v, v0 = vn = vmax = v, a = 1 the plan takes 4v-1 to 4v+4 ticks where one tick would do. If a*|ds| + 8*vmax^2 < 2*a*vmax*65533 the plan is stored in 16 bits; if this holds for every axis, all axes arrive together in at most 65535 ticks.", "quantifier": "all requests in the supported range, any number of axes, all alternative movements", "why_tests_cant": "A bound over all requests and all alternative movements.", "anchors": ["src/integer_curve.rs:shortest_curve", "src/integer_curve.rs:shortest_curve_length", "src/integer_curve.rs:shortest_curve_sequences"]}
{"id": "C97", "title": "build_optimal_path of main_old.rs is the fastest motion, with one exception", "statement": "For speeds within vmax, amax > 0 and vmax > 0, the three parts of build_optimal_path have times >= 0, keep the limits and lead from (s0, v0) exactly to (sn, vn). They are a motion (a differentiable place with a speed that changes by at most amax in a unit of time and stays within vmax), and no motion between the same ends within the limits takes less time, unless both speeds are negative and sn is where the direct change of speed leads. That the path is always optimal is refuted by this exception: from any place to itself at speed -v before and after it takes 4*v/amax instead of 0. Since tick by tick accelerations are motions, the time is a lower bound for every plan of the integer planner.", "quantifier": "all integer arguments in the stated range and all motions with real time, real arithmetic", "why_tests_cant": "Optimality is a statement about all motions.", "anchors": ["src/main_old.rs:build_optimal_path", "src/main_old.rs:extend_dist", "src/main_old.rs:eval_acc_time"]}
{"id": "C98", "title": "The program of main.rs prints a correct plan", "statement": "Given decimal numbers ds, v0, vn with |ds| <= 2^32 and |v0|, |vn| <= 2^15 as its first three arguments, the program prints one line with the plan for vmax = 10 and amax = 5: the printed flat speed lies between min(-10, v0, vn) and max(10, v0, vn), the printed distance is within one of ds, and there are as many accelerations as the printed duration t says, within the limit, that lead from v0 to vn over exactly the printed distance with speeds in the same range; 100*(t-3) <= 5*|ds| + 800 if |v0|, |vn| <= 10. No operation overflows. If the program does not panic, its first three arguments are decimal i64 numbers.", "quantifier": "all numbers in the stated ranges; all argument lists", "why_tests_cant": "Quantifies over more than 2^32 distances and all argument texts.", "anchors": ["src/main.rs:main", "src/integer_curve.rs:DistancePath::fmt", "src/integer_curve.rs:shortest_curve"]}
{"id": "C99", "title": "The planner works for speeds beyond the limit at the ends", "statement": "The conditions |v0| <= vmax and |vn| <= vmax are not needed: for |ds| <= 2^40, 1 <= a <= 32767, 1 <= vmax <= 2^20 and |v0|, |vn| <= 2^20 shortest_curve plans a path; if it has at most 65535 ticks it expands; the expansion has exactly that many ticks, ends at vn and within one of ds, accelerates by at most a, and all speeds lie between min(-vmax, v0, vn) and max(vmax, v0, vn). Every offered duration is possible in this sense, and all durations from 2^51 ticks on are offered. Several such axes are planned for one common duration. The duration T satisfies 2*a*vmax*(T-2) <= a*|ds| + (vmax+x)^2 + (vmax+y)^2 + a*(x+y) with x = max(vmax, |v0|), y = max(vmax, |vn|).", "quantifier": "all requests in the stated ranges, any number of axes", "why_tests_cant": "Quantifies over all speeds at the ends, including those the speed limited duration formula was not derived for (it counts ramps with negative durations there).", "anchors": ["src/integer_curve.rs:speed_limited_curve", "src/integer_curve.rs:max_acceleration_curve", "src/integer_curve.rs:shortest_curve_length", "src/integer_curve.rs:shortest_curve", "src/integer_curve.rs:shortest_curve_sequences", "src/integer_curve.rs:adjust_curve"]}
{"id": "C100", "title": "Rounding in path building is bounded", "statement": "Path building in binary64 and over the real numbers succeed and fail together, and give the same kinds of segments. Let all matrix entries of the transform be at most S in size, its translation at most T, all absolute coordinates at most P, n the number of arguments and Q = 2SP + T + 1. Then every coordinate of every end point differs by at most (2n + 16) Q / 2^53 from the exact one, and of every control vector by at most twice that. The bound grows with n because relative coordinates accumulate rounding. Arcs are excluded.", "quantifier": "all command lists without arcs, all transforms, with n below 2^49 and sizes below 2^900", "why_tests_cant": "An error bound over all f64 inputs and path lengths; rounding errors accumulate over unbounded paths.", "anchors": ["src/svg_path_parser.rs:build_path", "src/svg_path_parser.rs:parse_path", "src/coords.rs:Transform", "src/coords.rs:Vector"]}
{"id": "C101", "title": "Float evaluation of curves ends and stays on the curve", "statement": "In binary64, for any Taylor tables and any results of the binary searches: the bisection of find_param ends after at most 50 steps, and its result is a finite number in [0,1] that is within an epsilon of a place where the polynomial passes the wanted length. Every place a Bezier curve returns, for any length asked, NaN and infinities included, is within 150 W / 2^53 of a point of the cubic with the given control points (W bounds the coordinates), and at its own length it is its end point within the same bound. A line's places from 0 to its length are within 32 W / 2^53 of the segment, the last one of its end.", "quantifier": "all control points with coordinates up to 2^400, all lengths, all tables, all search results", "why_tests_cant": "Loop termination with a float condition that could stall at neighbouring floats; an error bound over all f64 inputs.", "anchors": ["src/curves/sqrt_poly.rs:find_param", "src/curves/sqrt_poly.rs:eval_int", "src/curves/sqrt_poly.rs:build_segments", "src/curves/bezier.rs:Bezier::bezier_value", "src/curves/bezier.rs:Bezier::value", "src/curves/line.rs:Line"]}
{"id": "C102", "title": "Runs end at moves and bends and nowhere else", "statement": "draw_curves divides its segments into runs of joined curves in exactly one way: a run ends where a GoTo takes effect or where the next drawn segment turns away from the direction of arrival by more than the angle of the limit, never elsewhere, and no run passes a GoTo that takes effect. A GoTo has no effect exactly if its place is, to the step, where the machine stands when the finished runs (not the pending one) are drawn. Closing lines shorter than 1e-6 only move the current place. A run starts where its predecessor ended or at the last GoTo.", "quantifier": "all segment lists, all curve geometry, all prior states", "why_tests_cant": "Deferred drawing: what a segment does depends on all earlier ones.", "anchors": ["src/stepper_context.rs:StepperContext::draw_curves"]}
{"id": "C103", "title": "Wherever the laser burns, the machine is at the figure", "statement": "For a drawing (draw_curves) that succeeds from any reachable state and reports the errors (ex, ey): at every tick at which the laser burns, the machine stands, on each axis, within e + 1 + |scale| * (D + (3200 N + 738) Q / 2^53 + 4/10^6 * K) steps of a point of the figure made of the segments, where e is the error the program itself reported, N the number of segments, K the number of CloseTo segments (a close shorter than 10^-6 is left out by the code), and Q bounds the coordinates. D bounds how far a GoTo that the code ignores (because the machine already stands at its step) is from where the drawing is; it is 0 when such GoTos lead to the place the drawing is at. The arcs are those of any circle code that is near the exact arc of the circle (circle_near; C118 shows that CircleSegment is), and the drawing stays within Q after each of them. (Without D the claim is false: the code compares a GoTo with the machine, not with the end of the curves not drawn yet.)", "quantifier": "all histories, all segment lists, all speeds, all search results and tables of the Bezier code, scales and coordinates up to 2^300", "why_tests_cant": "Relates the emitted pulse stream at every tick to the real figure for all inputs.", "anchors": ["src/stepper_context.rs:StepperContext::draw_curves", "src/stepper_context.rs:StepperContext::draw_curve", "src/curves/bezier.rs:Bezier::value", "src/curves/concat_curve.rs:ConcatCurve", "src/curves/line.rs:Line", "src/curves/circle_segment.rs:CircleSegment"]}
{"id": "C104", "title": "From the commands of a path to the burned line", "statement": "Let a path without arcs be built in binary64 under an affine transform and drawn. At every tick at which the laser burns, the machine is within e + 1 + |scale| * (D + (9600 N + 6 n + 2262) Q / 2^53 + 4/10^6 * K) steps, on each axis, of the image under the transform of a point of the untransformed path built in exact arithmetic (C44 to C47 say what is built). N is the number of segments, n the number of arguments, K the number of closes, Q = 2SP + T + 1 as in C100, e and D as in C103.", "quantifier": "all command lists without arcs that begin with a move, all transforms, all histories of the machine", "why_tests_cant": "End to end over all paths, transforms and machine states, with an explicit bound on all rounding.", "anchors": ["src/svg_path_parser.rs:build_path", "src/stepper_context.rs:StepperContext::draw_curves", "src/coords.rs:Transform"]}
{"id": "C105", "title": "Coordinates become steps by rounding, or are refused", "statement": "to_steps gives n exactly when the binary64 product of coordinate and scale is finite, n is the integer nearest to it (halves away from zero) and -2^63 < n < 2^63; to_step_v likewise with -2^31 < n < 2^31 - 1, so a speed of i32::MAX steps is refused although it fits; in every other case, NaN and infinities included, the call panics. Going from steps to a coordinate and back gives the same steps for all places within 2^50 steps and all scales between 2^-900 and 2^900, so a GoTo to the place where the machine stands does nothing at all.", "quantifier": "all binary64 coordinates, speeds and scales, all places within 2^50 steps", "why_tests_cant": "The conversion is exercised with a few small scales; the refused range, the ties and the round trip over all doubles are not.", "anchors": ["src/stepper_context.rs:to_steps", "src/stepper_context.rs:to_step_v", "src/stepper_context.rs:coord_from_steps", "src/stepper_context.rs:StepperContext::draw_curves"]}
{"id": "C106", "title": "Every number of a path text is rounded exactly once", "statement": "The binary64 number parser accepts the longest prefix of the text that is a number of the grammar and fails only if no prefix is one, and its result is the binary64 number nearest to the decimal value of that prefix (ties to even, infinity beyond the range). parse_path on a text of the grammar builds exactly the commands of the text with every argument rounded once; there is no second rounding and no argument is dropped, repeated or moved. A text on which parse_path succeeds is in the grammar.", "quantifier": "all texts (lists of code points), all contexts and transforms", "why_tests_cant": "The tests compare a few parsed paths with literals that are themselves rounded; they cannot show single rounding for all digit strings.", "anchors": ["src/svg_path_parser.rs:number", "src/svg_path_parser.rs:floating_point_signed", "src/svg_path_parser.rs:integer", "src/svg_path_parser.rs:path_command", "src/svg_path_parser.rs:parse_path"]}
{"id": "C107", "title": "From the text of a path to the burned line", "statement": "If a path text without arcs is read and built in binary64 under a transform and drawn by a machine in any state the program can reach, then whenever the laser burns the machine is near the image of a point of the figure the text describes: within the reported position error plus one step plus an explicit bound from rounding (which now includes the rounding of the decimal numbers), the distance of the moves, and the closing tolerance.", "quantifier": "all texts, transforms, scales, speeds, machine states, tables and search results within the stated size limits", "why_tests_cant": "No test runs from the text of a path to step pulses; the claim quantifies over all of them and all instants.", "anchors": ["src/svg_path_parser.rs:parse_path", "src/stepper_context.rs:StepperContext::draw_curves", "src/curve_approx.rs:approx_curve"]}
{"id": "C108", "title": "Rounding does not change which segments a document has", "statement": "For every stream of XML events whose d attributes contain no letter a or A, every filter, any two start transforms and any functions for sine, cosine and tangent: reading the document in binary64 and reading it with exact arithmetic give segments of the same kinds in the same order, or both give an error, or both panic. A document can be drawn exactly when its exact reading can.", "quantifier": "all event streams without arcs, all filters and start transforms", "why_tests_cant": "The tests read one document; that no overflow, infinity or NaN in any transform or number changes the control flow of the reader needs all of them.", "anchors": ["src/svg_parser.rs:parse_document", "src/svg_path_parser.rs:parse_transform", "src/svg_path_parser.rs:parse_view_box", "src/svg_path_parser.rs:parse_length", "src/svg_path.rs:main"]}
{"id": "C109", "title": "The rounding error of the transform of an attribute", "statement": "For every list of transforms (matrix, translate, scale, rotate with or without a centre, skewX and skewY up to one radian) with white space before it and anything after it that does not continue the list: if the library's sine, cosine and tangent are off by at most q units of 2^-53, then the matrix read in binary64 has finite entries, and they differ from those of the exact product of the matrices by at most k*N/2^53 (linear part) and k*N*(1+T)/2^53 (translation). N is the product of the sizes of the linear parts, T the sum of the translations, and k counts roundings: 2 for each matrix, translation or scale, q+5|angle|+8 for a rotation, q+11 for a skew, and 8 for each product.", "quantifier": "all lists of transforms with k <= 2^20 and N*(1+T) <= 2^900, all functions for sine, cosine and tangent of accuracy q", "why_tests_cant": "The test compares one parsed transform with a tolerance; the error of a list of any length at any angle needs an analysis of every operation.", "anchors": ["src/svg_path_parser.rs:parse_transform", "src/svg_path_parser.rs:transform_list", "src/svg_path_parser.rs:rotate", "src/coords.rs:Transform::rotate_around", "src/coords.rs:Transform::mul"]}
{"id": "C110", "title": "The direction along a Bezier curve is its tangent's", "statement": "The direction that bezier_value returns in binary64 differs from the unit vector of the curve's derivative at t by at most (4000*W/|B'(t)|+6)/2^53 in each coordinate, where W bounds the control points, whenever |B'(t)| is at least 2^-25 and at least W/2^35. Where the derivative is at most 1e-10 the direction is that of the second control point for t < 1/2 and that from the first control point to the end point for t >= 1/2, which are the limits of the tangent at the two ends. Refuted: that the direction is always tangent to the curve. At a cusp inside the curve (control points (9,0), (9,3), end (8,1), t = 3/4) the returned direction is at a right angle to the curve.", "quantifier": "all control points and parameters within the stated sizes", "why_tests_cant": "The tests look at a few points of a few curves; the bound on the rounding error and the behaviour where the derivative vanishes need all of them.", "anchors": ["src/curves/bezier.rs:bezier_value", "src/coords.rs:Vector::unit"]}
{"id": "C111", "title": "The rounding error of a whole document", "statement": "For every SVG document whose paths start with a move, have no arcs, at most n numbers and absolute coordinates of at most P, and every filter: if each chain of elements from the root to an element costs at most K roundings, enlarges at most N times and translates by at most T, then the reader in binary64 and the exact one both return segments, of the same kinds in the same order, or both return an error. Every point of a binary64 segment is finite and within (5n+16+K)*3N(P+T+1)/2^53 of the exact one (control points: twice that). A chain costs, for each transform attribute, what C109 counts plus 8, and 26 for each svg element, whose width, height and view box give the scale. Elements outside of the SVG name space cost nothing.", "quantifier": "all documents with K <= 2^20, n <= 2^40, 3N(P+T+1) <= 2^400, lengths and view boxes between 2^-300 and 2^300, all filters, all functions for sine, cosine and tangent of accuracy q", "why_tests_cant": "The test reads one document; the error of nested transforms, units and view boxes for any document needs an analysis of every operation.", "anchors": ["src/svg_parser.rs:parse_document", "src/svg_path_parser.rs:parse_length", "src/svg_path_parser.rs:view_box_args", "src/svg_path_parser.rs:parse_path", "src/coords.rs:Transform::mul"]}
{"id": "C112", "title": "From the document to the burned line: the whole svg_path program", "statement": "For every run of the svg_path program on a document as in C111 whose exact figure starts with a move, with any number of passes: at every tick at which the laser burns, the machine is, in each axis, within e + 1 + |scale|*(D + (9600*len + 15n + 3K + 2262)*3N(P+T+1)/2^53 + 4*closes/10^6) steps of a point of the exact figure of the document (the real segments of C53, drawn as real lines and Bezier curves), where e is the error of the pass it burns in - the printed one in the last pass -, len and closes count the segments and the closing lines, and D bounds what moves are left out because the machine already stands at their target. The burned places are those of the machine of the specification playing the whole event stream, moves back home and later passes included.", "quantifier": "all documents, layers, configurations, options, numbers of passes and ticks within the stated sizes; all tables of arc lengths with positive lengths", "why_tests_cant": "No test runs the program; the claim relates every tick of the stream to the mathematical figure of any document.", "anchors": ["src/svg_path.rs:main", "src/svg_parser.rs:parse_document", "src/stepper_context.rs:StepperContext::draw_curves", "src/coords.rs:Transform::mul"]}
{"id": "C113", "title": "The laser misses no part of a line or arc", "statement": "For a drawing (draw_curves) that succeeds from any reachable state, takes less than 2^31 - 1 ticks and reports the errors (ex, ey): for every line or circular arc of the figure (a LineTo, CloseTo or Arc, wherever it stands among other segments) that is longer than 3/2 v + D_x + D_y + 1700 N Q / 2^53 + 8/10^6, v being the way per tick, and for every point of that line or arc there is a tick of the drawing at which the laser burns with the weight of the drawing and at whose end the machine stands, on each axis, within e + 1 + |scale| * (3/2 v + D + (4500 N + 738) Q / 2^53 + 4/10^6 K) steps of the point (N, K, Q, D and the condition on arcs as in C103). Shorter lines can be lost: nothing is burned of a figure of one line of less than half the way of a tick (C113_short).", "quantifier": "all histories, all segment lists, all lines and arcs in them and all points of these, all speeds, all search results and tables of the Bezier code, scales and coordinates up to 2^300", "why_tests_cant": "A statement about every real point of every line, against the emitted pulse stream.", "anchors": ["src/stepper_context.rs:StepperContext::draw_curves", "src/stepper_context.rs:StepperContext::approx_curve", "src/curves/concat_curve.rs:ConcatCurve", "src/curves/line.rs:Line", "src/curves/circle_segment.rs:CircleSegment"]}
{"id": "C114", "title": "The svg_path program misses no part of a line of the document, in any pass", "statement": "For a run of svg_path (read a document, draw it n_repeat times, go home) that succeeds within 2^31 - 1 ticks, under the hypotheses of C112: in every pass, for every line of the exact figure of the document (real arithmetic, all transforms and viewports applied) that is longer than 3/2 v + D_x + D_y + (5100 len + 20 n + 4 K + 64) Q / 2^53 + 8/10^6, and for every point of that line, there is a tick of this pass at which the laser burns with the weight of the chosen intensity, and at whose end the machine stands, on each axis, within e + 1 + |scale| * (3/2 v + D + (13500 len + 5 n + K + 2230) Q / 2^53 + 4/10^6 closes) steps of the point. e is the error of the pass; for the last pass it is the one the program returns. Together with C112 (nothing else is burned) this is the correctness of the burned picture for documents of lines.", "quantifier": "all documents without arcs within the size limits, all layers, all configurations, speeds, intensities and numbers of passes, all lines and all real points of them", "why_tests_cant": "A statement about every real point of every line, in every pass, from the document's events to the pulse stream.", "anchors": ["src/svg_path.rs:main", "src/svg_parser.rs:parse_document", "src/stepper_context.rs:StepperContext::draw_curves", "src/stepper_context.rs:StepperContext::approx_curve"]}
{"id": "C115", "title": "The svg_path program from its command line to the serial line", "statement": "For every world (files read as JSON values and XML events, serial ports with arbitrary answers), every set of options and every geometry: a speed option is accepted exactly if it is a decimal number, or inf, infinity or nan in any case, with an optional sign, and is the binary64 number it spells, correctly rounded; an integer option exactly if it is a decimal numeral within i32. The program ends with a message, having sent nothing, exactly if help is asked for, a file name is missing, the configuration is missing or unusable, or (2*ticks per second fitting u32) some option is not a number of its kind (repeat 1.., intensity 0..100). If anything is on the serial line, then the values used are those the options (or the defaults 20, 1, 5) say, and the traffic is that of sending the drawing of the named document. Without a device nothing is sent, and if the program ends in order the named document could be drawn. However the run goes, each command the controller accepted is for channel 0 or 1 with a 16 bit acceleration or sets the weight 0 or intensity*254/100 <= 254, so the laser never has another weight; and if the program ends, the controller does, tick for tick from 128 ticks after the time it told, what the event stream says. Expected but false: if a reply cannot be read half-way the program panics without a reset, and the laser can stay on (C115_left_on).", "quantifier": "all worlds, options, trigonometry and geometry, all serial answers (also failures), all ticks", "why_tests_cant": "It covers all option texts, all port behaviours and all times at which the conversation can break off.", "anchors": ["src/svg_path.rs:main", "src/stepper_control.rs:StepperControl::play_events"]}
{"id": "C116", "title": "The image_raster program from its command line to the serial line", "statement": "For every world and every set of options, image_raster ends with a message, having sent nothing, exactly if help is asked for, a file name is missing, the configuration is missing or unusable, or (2*ticks per second fitting u32) some option is not a number of its kind or the image cannot be read. If anything is on the serial line, the values used are those the options (or the defaults 20, 5, 0.2) say, the events are those of the flushed raster of the named image, every command the controller accepted is for channel 0 or 1 with a 16 bit acceleration or sets a weight between 0 and intensity*254/100 <= 254, so that the laser never has more than that weight if it had not before; and if the program ends, the controller does, tick for tick from 128 ticks after the time it told, what the event stream says (C75, C76).", "quantifier": "all worlds, options, images, all serial answers (also failures), all ticks", "why_tests_cant": "It covers all option texts, all images, all port behaviours and all times at which the conversation can break off.", "anchors": ["src/image_raster.rs:main", "src/stepper_control.rs:StepperControl::play_events"]}
{"id": "C117", "title": "What svg_path does with a drawing speed that is not positive", "statement": "The drawing speed is not checked. With a speed that has a minus sign (also -0) or for NaN the program, if it ends, has run all its passes and the way home, reports the errors (0, 0), and the laser is off at every tick: nothing is burned, for every document, geometry without negative curve lengths (lines never have one), configuration and intensity. With the speed +0, a drawing that succeeds burns for exactly 2^31 - 1 ticks at the start of every run of positive finite length, each axis staying within its reported error of that start (an example of a drawing that does succeed is proved to exist). With an infinite speed or NaN no drawing with a line, curve or arc in it can be finished: the program fails before anything is sent. From the command line, \"-20\" is accepted and the program finishes: in the proved example the weight 127 is sent and taken back at the same tick.", "quantifier": "all segment lists, geometries, configurations, intensities, pass counts, all ticks; all speeds of each kind", "why_tests_cant": "It is about all speeds of a kind and all ticks; the zero speed case alone takes 2^31 ticks.", "anchors": ["src/svg_path.rs:main", "src/stepper_context.rs:StepperContext::approx_curve", "src/stepper_context.rs:StepperContext::to_step_v"]}
{"id": "C118", "title": "Circle segments are near the circle, and drawings with arcs are burned where they should be", "statement": "CircleSegment::new in binary64, for finite angles a, b and radius r > 0 with r (|a| + |b| + q + 2) <= Q <= 2^36 r, where sine and cosine are off by at most q / 2^53: its length is within 5/2 Q / 2^53 of r |b - a|, and at every length s up to it its point is within 16 Q / 2^53, on each axis, of the point of the circle r (cos, sin) at the angle a + s/r (a - s/r when b < a), seen from its start, and its direction within (q + 7 Q/r) / 2^53 of the unit tangent. Hence C103 and C113 hold for drawings with lines, Bezier curves and arcs, with no other hypothesis on the arcs than their sizes and that they end within Q/2: wherever the laser burns the machine is at the figure, and no part of a line or arc longer than one and a half ticks is missed.", "quantifier": "all radii and angles within the sizes, all sine and cosine functions of bounded error, all lengths along the arc; for the drawings all histories, segment lists, speeds and scales as in C103 and C113", "why_tests_cant": "Bounds the rounding error of every point of every arc, and relates every tick of the emitted stream to real arcs.", "anchors": ["src/curves/circle_segment.rs:CircleSegment::new", "src/curves/circle_segment.rs:CircleSegment::value", "src/curves/circle_segment.rs:CircleSegment::length", "src/stepper_context.rs:StepperContext::draw_curves"]}
{"id": "C119", "title": "Arcs of circles of a path in binary64", "statement": "The arc code of build_path in binary64 (transform_ellipse, the chord, the angles) on a circle (equal radii r, no rotation of its own) under a transform that scales both axes by the same absolute value m and does not skew, with r and m between 2^-99 and 2^99, and with sin, cos and atan2 exact at zero and atan2 off by at most q / 2^53: with S = m r and d the transformed displacement, the arc is accepted when |d|^2 <= 4 S^2 (1 - 50/2^53), refused when |d|^2 >= 4 S^2 (1 + 50/2^53), and never panics. The segment made has two equal radii, within 12 S / 2^53 of S; its end points differ by d up to (200 + 2q) S / 2^53 on each axis; its angle grows exactly when the sweep flag is set; it spans at least half a turn (less (60 + 2q)/2^53) when the large flag is set and at most half a turn (plus as much) when it is not. Such a segment is always drawable (the unequal radii check of draw_curves passes), and the pen ends within (200 + 2q) S / 2^53 of where it should.", "quantifier": "all radii, scalings, displacements and flags within the sizes, all functions sin, cos, atan2 that are exact at zero and of bounded error", "why_tests_cant": "Bounds the accumulated rounding error of about forty float operations, square roots and library calls over all inputs, and shows that no rounding makes the radii differ.", "anchors": ["src/svg_path_parser.rs:build_path", "src/svg_path_parser.rs:transform_ellipse", "src/stepper_context.rs:StepperContext::curve_segment_to_info"]}
{"id": "C120", "title": "What rounding does to arcs of circles", "statement": "Three refutations of what one would expect of arcs of circles in binary64. The half circle M0 0A31 31 0 0 1 62 0 under the identity is refused as too small, for all functions exact at zero. A circle of radius 7 under the rotation matrix (3/5, 4/5, -4/5, 3/5) gets two radii that differ by more than EPSILON, so drawing it can never succeed (for functions with atan2(y, 0) = pi/2 and the correctly rounded sine and cosine of pi/4). In a document of 8in by 12in with view box 0 0 8 12 the two scale factors differ in the last place, so an arc of a circle of radius 3 is turned into an ellipse and drawing it can never succeed, for all functions exact at zero.", "quantifier": "all flags, all end points that are accepted, all drawings that contain the arc, all machine states and speeds; the radii and transforms are the ones named", "why_tests_cant": "Each is one input, but that no drawing containing such an arc ever succeeds is a statement about all drawings.", "anchors": ["src/svg_path_parser.rs:build_path", "src/svg_path_parser.rs:transform_ellipse", "src/svg_parser.rs:parse_document", "src/stepper_context.rs:StepperContext::draw_curves"]}
{"id": "C121", "title": "Whole paths with arcs of circles in binary64", "statement": "A path whose arcs are circles (equal radii, rotation 0, radius between 2^-98 and 2^98), read from its text and built in binary64 under an even transform (same absolute scale on both axes, no skew), follows the path with a straight line in the place of every arc, computed exactly: with S and T the bounds of the transform, P the bound of the absolute coordinates of that path, n its count of numbers and Q = 2 S P + T + 1, every line and curve is within E = (5n + 16) Q / 2^53 of the exact one, and every arc is an arc of a circle of the scaled radius r, turning the way and spanning the part its flags ask for, between end points whose difference is within 3 r / 2^53 + 2E (and (200 + 2q) r / 2^53 for the trigonometry) of the exact difference. Arcs do not carry an end point but angles, so their errors add up: after k segments the pen is within 2E + k (203 + 2q) R / 2^53 of the exact pen, R the largest scaled radius. A single arc command is refused when the transformed end point equals the place of the pen or lies at least 4 r^2 (1 + 60/2^53) from it (squared), accepted when it lies at most 4 r^2 (1 - 60/2^53) from it, and never panics.", "quantifier": "all texts of paths whose arcs are circles, all even transforms and sizes within the bounds (coordinates up to 2^190), all functions sin, cos and atan2 exact at zero with atan2 off by at most q / 2^53", "why_tests_cant": "Bounds the accumulated error of paths of any length, and how the errors of successive arcs add up; no set of paths shows a bound.", "anchors": ["src/svg_path_parser.rs:build_path", "src/svg_path_parser.rs:parse_path", "src/svg_path_parser.rs:transform_ellipse"]}
{"id": "C122", "title": "From the text of a path with arcs of circles to the burned line", "statement": "The text of a path whose arcs are circles, read and built in binary64 under an even transform and drawn: whenever the laser burns, the machine is near a point of the path, where a point of an arc is one of an arc of a circle of the scaled radius between the exact ends of the arc (up to 4E + drift + (215 + 2q) R / 2^53), turning as the sweep flag says and spanning more or less than half a turn as the large flag says; and every point of every line, curve and arc of the path that is longer than one and a half ticks is burned. 'Near' is the error reported by draw_curves plus one step, plus the step scale times D + (3200 N + 738) W / 2^53 + 6E + 3 drift + 12 R / 2^53 + 4/10^6 per closed figure (covering: and 3/2 v, with 4500 N), where N is the number of segments, E = (5n + 16) Q / 2^53 the rounding of the coordinates, drift = N (203 + 2q) R / 2^53 that of the arcs and R the largest radius.", "quantifier": "all texts, even transforms, radii and coordinates within the sizes, all machine states reached by the program, speeds, step scales, ticks at which the laser burns and points of the path; all functions sin, cos and atan2 exact at zero and of bounded error", "why_tests_cant": "Joins the reader of the text, the construction of the arcs, the drawing and the machine's motion for all inputs; a test sees some points of some drawings.", "anchors": ["src/svg_path_parser.rs:parse_path", "src/svg_path_parser.rs:build_path", "src/stepper_context.rs:StepperContext::draw_curves", "src/stepper_context.rs:StepperContext::approx_curve", "src/curves/circle_segment.rs:CircleSegment::value"]}
{"id": "C123", "title": "The calls made by permutate!", "statement": "For any vectors, at least one, the four rules of permutate! expand to loops that make as many calls as the product of the lengths; call number k takes from each vector the element whose index is the digit of k in the mixed radix of the lengths, the last vector changing fastest, and passes the elements in the order of the vectors. The calls are with all combinations and no others, and if no vector repeats an element no call is repeated. Without vectors no rule matches.", "quantifier": "all lists of vectors of any lengths and elements", "why_tests_cant": "The number of vectors and their lengths are unbounded; the program makes one fixed set of 216 calls.", "anchors": ["src/permutate.rs:permutate", "src/main_old.rs:permutate"]}
{"id": "C124", "title": "build_optimal_int_path returns nothing, and the test of extend_dist passes", "statement": "Whatever it is asked, build_optimal_int_path of main_old.rs panics or returns an empty sequence of accelerations, the latter only if the first acceleration takes more than one tick and at most two, and then within the limits always (times that fit in i32). So what it returns leads to the goal only if the goal is the start, and asked for that it panics unless the speed is negative, more than half of the acceleration and at most the acceleration. check_path prints the goal exactly, in exact arithmetic. check_extend_dist passes for all distances and start speeds with a positive acceleration and maximum speed, so the test extend passes.", "quantifier": "all positions, speeds, accelerations and maximum speeds (within the limits where said), over the real numbers", "why_tests_cant": "The function has no test, and its empty result depends on a slice of a vector without elements that only panics at run time; the test of extend_dist has 324 calls.", "anchors": ["src/main_old.rs:build_optimal_int_path", "src/main_old.rs:check_path", "src/main_old.rs:check_extend_dist", "src/main_old.rs:extend"]}
{"id": "C125", "title": "From a document whose paths have arcs of circles to the burned line", "statement": "The segments that svg_path reads from a document in binary64 are those of its paths one after the other, each built on its own under the transform computed for the elements above it, which moves a point at most k N (B + T + 1) / 2^53 off the exact product of the transforms. If the paths with arcs are under transforms that only move and scale evenly (a product of such transforms is one again, although the scales are rounded), and their arcs are circles with radii between L and R, then whenever the laser burns the machine is near a point of a path of the document, where a point of an arc is on a circle of the scaled radius between the exact ends of the arc under the exact transform, turning as the flags say; and in every pass every point of every line and arc of every path that is longer than one and a half ticks is burned. 'Near' is the error reported for the pass plus one step, plus the step scale times D + (3200 N + 738) W / 2^53 + 6E + 3 drift + 12 R / 2^53 + 4/10^6 per closed figure (covering: and 3/2 v, with 4500 N).", "quantifier": "all documents (trees of any depth and width), layers, transforms, paths with lines, curves and arcs of circles within the sizes, all options and machines for which svg_path succeeds, all passes, ticks at which the laser burns and points of the paths; all functions sin, cos, tan and atan2 exact at zero and of bounded error", "why_tests_cant": "Joins the reader of the document, the transforms, the construction of the arcs, the passes and the machine's motion for all inputs; a test sees some points of some drawings.", "anchors": ["src/svg_path.rs:main", "src/svg_parser.rs:parse_document", "src/svg_path_parser.rs:parse_path", "src/coords.rs:Transform::mul"]}
{"id": "C126", "title": "Arcs of circles that keep clear are read, and arcs wider than their circle are refused", "statement": "Under a transform that moves and scales evenly by m, reading a path whose arcs are circles in binary64 never panics. If every command has as many numbers as it needs, once or more, and every arc has its ends further apart than 10 E and, with the margin 10 E and one part in 2^40, nearer than the scaled circle is wide, the path is read. If for some arc the ends are further apart than the circle is wide, with the same margins, the whole path is refused. E is (5 n + 16) Q / 2^53 for n coordinates of sizes up to Q under the transform. A document all of whose paths are like that, whose transforms and viewBoxes can be read, is read.", "quantifier": "all texts of paths with commands m l h v c q a z, circles of any radii from 2^-98 to 2^98, transforms within the sizes; all documents (trees of any depth and width) and layers; all functions sin, cos, tan and atan2 exact at zero and of bounded error", "why_tests_cant": "Whether an arc is refused depends on rounded lengths and quotients near the boundary; a test tries some arcs, and the margin in which the answer may depend on the rounding is only known by proof.", "anchors": ["src/svg_path_parser.rs:build_path", "src/svg_path_parser.rs:parse_path", "src/svg_parser.rs:parse_document"]}
{"id": "C127", "title": "The assertions of the code's own tests hold for all inputs", "statement": "The checks that the tests of integer_curve.rs, solve.rs and multi_range.rs make for small inputs pass for all inputs. A planned curve (distance, speeds and acceleration within the request, at most 65535 ticks) covers its distance within one, keeps its flat speed and the speed one beyond it within vmax, leaves room for its ramps and for the adjustment with at least one flat tick more, and its sequence covers the same distance. The shortest full acceleration reaches at least the distance. For any two speeds and any number of ticks long enough to get from one to the other, every distance between those of the two flat speeds is met within one. The sequence of any two ramps has no segment without ticks and covers the distance computed from the formula. The three integer divisions are the quotient rounded up, down and to the nearest. A root is found on either side of the integer nearest to the vertex exactly when there is one, and is the first integer beyond. Intersections of sets of integers give the same representation in both orders and by both functions, since a set has only one representation. Hence the whole tests pass.", "quantifier": "all requests (|ds| <= 2^40, 1 <= a <= 32767, 1 <= vmax <= 2^20, speeds within vmax); all integers for the divisions; all quadratics with positive leading coefficient and limits where they are not negative; all ordered lists of non-empty ranges", "why_tests_cant": "These are the tests: they call the checks for distances up to 40, speeds up to 7 and coefficients up to 5. The theorems say that the same checks pass for every input in the ranges the code supports.", "anchors": ["src/integer_curve.rs:check_shortest_curve", "src/integer_curve.rs:check_max_acceleration_curve", "src/integer_curve.rs:test_adjust_curve_mid", "src/integer_curve.rs:test_acc_sequence", "src/solve.rs:find_root_check_limits", "src/solve.rs:ceil_idiv", "src/multi_range.rs:check_and"]}
{"id": "C128", "title": "Ellipses in binary64, and circles that are stretched into ellipses", "statement": "For all radii and all transforms that scale the two axes by any two factors (sizes between 2^-99 and 2^99) and all functions exact at zero, an unrotated arc whose ellipse comes out wider than tall by more than the rounding is either refused as too small or gets the two scaled radii with a relative error of at most 13/2^53 and no rotation, and never panics. If it comes out taller (at most 2^20 times), and atan2, sine and cosine are right at a half and a quarter turn, the two radii are exchanged and the rotation is the double nearest to a quarter turn, either way. If the two radii differ by a factor of 1 + 2^-40 and by at least 2^-51, no drawing that contains the accepted arc can ever be drawn.", "quantifier": "all radii, scale factors, flags and end points, all implementations of the functions that meet the named conditions, all drawings that contain the arc, all machine states and speeds", "why_tests_cant": "The radii and scale factors are doubles, the error bound is in the last places, and the code's behaviour depends on the order of two rounded numbers; a test covers a few ellipses, and no test can show that no drawing succeeds.", "anchors": ["src/svg_path_parser.rs:transform_ellipse", "src/svg_path_parser.rs:build_path", "src/stepper_context.rs:StepperContext::draw_curves"]}
{"id": "C129", "title": "Drawings of lines within reach are carried through", "statement": "Whatever lines and moves a drawing is made of and however they follow one another (lines of no length, corners, moves to where the machine stands), if all its places have coordinates of at most D (none nearer to 0 than 2^-400 without being 0), the speed along a line is not more than either axis can go, N ticks are enough for its lines (8 D per line), and a move across D and N ticks at full speed can be stored, then draw_curves from any state within reach comes back with no assertion failing, no arithmetic overflowing and no index out of bounds, and so does the flush after it. The speed bound is exact: one half step a tick more and the drawing panics. Without any condition on how near to 0 the coordinates are, it is enough that the machine can go a quarter faster than it is told to; at exactly the speed it can go, a line from 0 to 1.2 * 2^-537 makes the drawing panic, because its computed direction is 1.2 and not 1.", "quantifier": "all drawings of up to 2^20 lines and moves (D times their number at most 2^32), all scales between 2^-16 and 2^22 of either sign, all limits 1 <= a <= 32767 and 1 <= v <= 2^20, all speeds, all states reached by calls of the context within reach, all searches that come back", "why_tests_cant": "Each of the assertions on rounded positions and speeds, the checked additions and the stored numbers of ticks could fail for some drawing; a test runs a few drawings, and the margin between the speed of a line computed in binary64 and the limit of the machine is in the last place.", "anchors": ["src/stepper_context.rs:StepperContext::draw_curves", "src/stepper_context.rs:StepperContext::draw_curve", "src/stepper_context.rs:StepperContext::approx_curve", "src/stepper_context.rs:to_step_v", "src/curves/concat_curve.rs:ConcatCurve::value"]}
{"id": "C130", "title": "The svg_path program carries drawings of lines through", "statement": "Given the limits the program computes from its configuration and options, a document read as a move followed by lines and moves within D of the origin is drawn to its end, in any number of passes each starting where the one before ended, and the way home and the closing events follow: no assertion fails, no arithmetic overflows and no index is out of bounds. It is asked that the limits are usable (1 <= a <= 32767, 1 <= v <= 2^20), that the speed of drawing per tick is not more than either axis can go, that the ticks of one pass are bounded by N (8 D' per segment, D' at least a step beyond D) and that a move across D' and N ticks at full speed can be stored. The configuration in the repository with the default options meets this. If the machine can go a quarter faster than it is told to, no coordinate is too near to 0.", "quantifier": "all documents and layers read as lines and moves, all configurations, options and speeds within the limits, all numbers of passes and segments with a product up to 2^45, all functions sin, cos, tan and atan2, all searches that come back", "why_tests_cant": "The state a pass starts from is where the pass before happened to end, and the checks on it depend on rounded positions, speeds and times; a test runs a few documents, while a run of the real program that panics half way has burnt half of the work piece.", "anchors": ["src/svg_path.rs:main", "src/stepper_context.rs:StepperContext::draw_curves", "src/stepper_context.rs:StepperContext::step_goto", "src/stepper_context.rs:StepperContext::events"]}
{"id": "C131", "title": "Documents of lines go through the svg_path program", "statement": "If the exact figure of a document (the transforms, units and path data read with real arithmetic) is nothing, or a move followed by lines and moves that stay within D of the origin by the error bound of C111, then the svg_path program, which reads and draws it in binary64, comes to its end with no assertion failing, no arithmetic overflowing and no index out of bounds. All conditions speak of the text of the document (as in C111), of the configured machine (usable limits, able to go a quarter faster than told to, a move across the drawing can be stored) and of nothing the program computes on the way.", "quantifier": "all documents, layers and transforms nested to any depth whose figure consists of lines and moves and that meet the bounds of C111, all configurations, options and speeds within the limits, all numbers of passes and segments with a product up to 2^45, all accurate functions sin, cos and tan, all searches that come back", "why_tests_cant": "A document is text of any length and nesting; its coordinates reach the motor code through the roundings of every number, unit, matrix and point, any of which could make a coordinate infinite, a line too fast or an index fall outside. A test sees only the documents it has.", "anchors": ["src/svg_path.rs:main", "src/svg_parser.rs:parse_document", "src/stepper_context.rs:StepperContext::draw_curves"]}
{"id": "C132", "title": "A document of one polyline is burned from end to end", "statement": "For a document whose exact figure is one move followed by lines, and a machine able to draw it, svg_path comes to its end; whenever the laser burns, the machine is within the measured error of the pass, one and a half steps and the (tiny) rounding errors of a point of the figure; and in every pass every point of every line longer than about a tick and a half of movement is burned, within one and a half ticks of movement more. Unlike C112 and C114 nothing is assumed about the run: that it comes out, how many ticks it takes, where passes start, that no length is out of range and that no move is skipped wrongly all follow from the text of the document and the numbers of the machine.", "quantifier": "all documents whose figure is one polyline, all layers and nested transforms within the bounds of C111, all configurations, options, speeds and numbers of passes within the limits, all ticks with the laser on, all points of all lines, all accurate functions sin, cos and tan, all correct searches", "why_tests_cant": "The property joins the text, the binary64 arithmetic, the planning of movements and the playback of the event stream; a test would compare one stream with one picture, and needs to know beforehand which documents come out at all.", "anchors": ["src/svg_path.rs:main", "src/svg_parser.rs:parse_document", "src/stepper_context.rs:StepperContext::draw_curves", "src/stepper_context.rs:StepperContext::events"]}
{"id": "C133", "title": "Images are rastered to the end", "statement": "image_raster rasters an image to its end, without a panic, whenever the limits are in the planner's range (accelerations 1 to 32767, speeds 1 to 2^20), the scan speed computed for it is within the limit, and the width and the height of the image in steps, one step added, can each be crossed in 65535 ticks. Then every pixel that is not white is exposed in each of its lines, over its place and with its weight, the head ends at home and at rest with the laser off, the stream can be sent, and the whole takes at most 65535 ticks and the time of a full line for each line, and 65535 ticks for the way home. With the configuration in the repository and no options that covers every image of 100 by 100 pixels.", "quantifier": "all images, configurations, options, intensities and sizes within the stated limits; all pixels, lines, ticks", "why_tests_cant": "Each line adds a move that depends on the dark span of its row and on where the last line ended, and any of about thirty checked operations per line could end the program; there are 256^10000 images of 100 by 100 pixels.", "anchors": ["src/image_raster.rs:main", "src/image_raster.rs:find_row_interval", "src/stepper_context.rs:StepperContext::step_goto_speed", "src/stepper_context.rs:StepperContext::add_acc_interval", "src/stepper_context.rs:StepperContext::add_weight_change"]}
{"id": "C134", "title": "image_raster ends successfully and the image is exposed", "statement": "image_raster, started with a readable configuration of 1 to 2^31 - 1 ticks per second, options that are all numbers, and an image that meets the conditions of C133 in every reading of the options, ends successfully. Without a device it ends so with no byte exchanged. With a device there is one number n, the length of the command stream, such that it ends so with every controller that tells its time and then answers n commands with OK, each after any number of refusals for a full queue, however the bytes of the replies are delayed, if the time of the controller does not leave the signed 64 bit range during the stream. Whenever it has ended so with a device, the accepted commands make the controller expose every pixel that is not white in each of its lines, over its place and with its weight, counted from the time the controller told plus 128.", "quantifier": "all command lines, configurations, images, controllers' clocks, numbers of refusals and timings of the replies within the stated conditions", "why_tests_cant": "It joins the reading of the options, the planning of every line and the exchange of every command: a panic in any of them ends the program, and the replies can be split and delayed without bound.", "anchors": ["src/image_raster.rs:main", "src/stepper_control.rs:play_events", "src/stepper_config.rs:Config", "src/stepper_context.rs:StepperContext::events"]}
{"id": "C135", "title": "svg_path ends successfully", "statement": "svg_path, started with a readable configuration of 1 to 2^31 - 1 ticks per second, options that are all numbers, and a document of lines and moves that meets the conditions of C131 in every reading of the options, ends successfully. Without a device it ends so with no byte exchanged. With a device there is one number n, the length of the command stream, such that it ends so with every controller that tells its time and then answers n commands with OK, each after any number of refusals for a full queue, however the bytes of the replies are delayed, if the time of the controller does not leave the signed 64 bit range during the stream.", "quantifier": "all command lines, configurations, documents of lines, numbers of passes, controllers' clocks, numbers of refusals and timings of the replies within the stated conditions", "why_tests_cant": "It joins the reading of the options and of the document in floating point, the planning of every segment and the exchange of every command: a panic in any of them ends the program, and the replies can be split and delayed without bound.", "anchors": ["src/svg_path.rs:main", "src/stepper_control.rs:play_events", "src/stepper_config.rs:Config", "src/stepper_context.rs:StepperContext::events"]}
