{"id": "C01", "title": "RemoveContact removes exactly one contact", "statement": "State::RemoveContact(id) returns true iff id was an active contact; then afterwards id appears in none of the contact tables nor in the contact order, nbContacts is one less, stable is false, and every other contact's flag, normal, position, rotation and relative order, as well as the configuration, are unchanged. When it returns false the state is unchanged.", "quantifier": "every State (any set of contacts, any order queue, any count) and every contact id", "why_tests_cant": "the frame condition ranges over all contact maps and queues; tests see a few robots with four limbs", "anchors": ["src/rbprm-state.cc:State::RemoveContact", "include/hpp/rbprm/rbprm-state.hh:State"]}
{"id": "C02", "title": "RemoveFirstContact is FIFO", "statement": "State::RemoveFirstContact() returns the empty string and leaves the state unchanged when no contact order is recorded; otherwise it returns the oldest recorded contact, which disappears from all tables, and leaves all others in place and in order. For every state reached from the empty one by creating and removing contacts the recorded order is the chronological order of creation of the contacts still active, and calling it until the order is empty returns them exactly in that order.", "quantifier": "every State, every history of creations and removals and every number of calls", "why_tests_cant": "needs induction over queue length and all histories", "anchors": ["src/rbprm-state.cc:State::RemoveFirstContact"]}
{"id": "C03", "title": "Contact bookkeeping stays consistent under any history", "statement": "Starting from the default State, after any sequence of contact creations (each done the way the library adds a contact to a limb not currently in contact, counting it), RemoveContact and RemoveFirstContact calls, the four contact tables have the same key set, the order queue is a duplicate-free enumeration of this key set, and nbContacts equals its size.", "quantifier": "every finite sequence of operations with arbitrary ids and geometric values", "why_tests_cant": "an invariant over all histories; tests execute a handful", "anchors": ["src/rbprm-state.cc:State::RemoveContact", "src/rbprm-state.cc:State::RemoveFirstContact", "src/projection/projection.cc:projectEffector"]}
{"id": "C04", "title": "contactCreations lists exactly the new or moved contacts", "statement": "to.contactCreations(from) contains an id iff the id has a contact position in `to` and either has none in `from` or moved by more than 1 cm; each id once, in increasing name order. The accumulating overload only appends to the list it is given and never adds an id already there.", "quantifier": "every pair of States and every initial output list", "why_tests_cant": "universally quantified over maps of positions and over the output list", "anchors": ["src/rbprm-state.cc:State::contactCreations"]}
{"id": "C05", "title": "contactBreaks mirrors contactCreations", "statement": "to.contactBreaks(from) = from.contactCreations(to): it lists exactly the ids in contact in `from` that are absent or moved by more than 1 cm in `to`; a moved contact is thus both a creation and a break; contactVariations is the duplicate-free union of both and is, as a set, symmetric in its two states; it is empty for identical states.", "quantifier": "every pair of States", "why_tests_cant": "universally quantified set equality", "anchors": ["src/rbprm-state.cc:State::contactBreaks", "src/rbprm-state.cc:State::contactVariations"]}
{"id": "C06", "title": "Contacts are partitioned into fixed and varying ones", "statement": "For every pair of states, each contact of `this` is in exactly one of fixedContacts and contactVariations; fixedContacts are exactly the contacts present in both within 1 cm; allVariations(prev, effs) is the sublist of effs (same order, same multiplicity) that are not fixed; freeEffectors(state, effs) is the sublist of effs not active in state.", "quantifier": "every pair of States and effector list", "why_tests_cant": "universally quantified set partition", "anchors": ["src/rbprm-state.cc:State::fixedContacts", "src/rbprm-state.cc:State::allVariations", "include/hpp/rbprm/rbprm-state.hh:freeEffectors"]}
{"id": "C07", "title": "freeVariations returns the effectors free in both states, or throws", "statement": "When both states have a table entry for every effector of effs, freeVariations(previous, effs) is the sublist of effs that are in contact in neither state. In general it returns the effectors that are not variations and whose entry is false, and throws iff some effector that is not a variation has no entry; hence for states built by the library, which only record contacts that exist, it throws as soon as one effector is free in both and is empty otherwise.", "quantifier": "every pair of States and every effector list", "why_tests_cant": "depends on which effectors have an entry in the contact table, i.e. on the history of the state", "anchors": ["src/rbprm-state.cc:freeLimbMotions", "src/rbprm-state.cc:State::freeVariations"]}
{"id": "C08", "title": "effectorDistance is the largest displacement of a re-placed contact", "statement": "effectorDistance(from,to) is 0 when no contact present in both states moved by more than 1 cm; otherwise it is the maximum, over contacts present in both states, of the distance between their positions; it is symmetric.", "quantifier": "every pair of States", "why_tests_cant": "maximum over arbitrary maps of real vectors", "anchors": ["src/rbprm-state.cc:effectorDistance"]}
{"id": "C09", "title": "What copying and assigning a State preserve", "statement": "After State b(a) every public field of b equals that of a and later modification of b does not change a. After b = a the same holds of every field but robustness, which keeps the value b had.", "quantifier": "every pair of States", "why_tests_cant": "a field-wise frame condition; a forgotten field is invisible unless a test compares just that field", "anchors": ["src/rbprm-state.cc:State::State(const State&)", "src/rbprm-state.cc:State::operator="]}
{"id": "C10", "title": "Maintained-contact candidates: all removals up to the bound, fewest broken first", "statement": "For a helper whose working state has n != 1 contacts, maintain_contacts_combinatorial enumerates precisely the states obtained from the working state by removing a set of at most maxContactBreaks contacts: each such set exactly once, and never a state with more broken contacts before one with fewer; the working state itself comes first; sets of the same size come in lexicographic order of the contacts' creation order.", "quantifier": "every consistent working state and every bound", "why_tests_cant": "number of subsets is exponential in contacts; completeness and minimality quantify over all of them", "anchors": ["src/contact_generation/contact_generation.cc:maintain_contacts_combinatorial_rec", "src/contact_generation/contact_generation.cc:maintain_contacts_combinatorial", "src/contact_generation/contact_generation.cc:flatten", "src/contact_generation/contact_generation.cc:push_if_new"]}
{"id": "C11", "title": "A lone contact is never broken by the maintain step", "statement": "When the working state has exactly one contact the candidate list is exactly that state; when n>=2 and maxContactBreaks < n every candidate keeps at least one contact.", "quantifier": "every working state and bound", "why_tests_cant": "for all states", "anchors": ["src/contact_generation/contact_generation.cc:maintain_contacts_combinatorial"]}
{"id": "C12", "title": "Contact-creation candidates enumerate every arrangement once", "statement": "stringCombinatorial(cands, maxCreations, maximise) for duplicate-free cands yields every repetition-free sequence of at most maxCreations candidates exactly once, in non-decreasing length; with maximise the empty sequence is moved to the end, otherwise it is first.", "quantifier": "every candidate list and depth", "why_tests_cant": "factorial number of sequences, unbounded depth", "anchors": ["src/contact_generation/contact_generation.cc:stringCombinatorialRec", "src/contact_generation/contact_generation.cc:stringCombinatorial", "src/contact_generation/contact_generation.cc:gen_contacts_combinatorial"]}
{"id": "C13", "title": "Free limbs are tried in a deterministic order without loss", "statement": "sortLimbs(state, limbs) is a permutation of a duplicate-free limbs list: limbs absent from the contact order first in their given order, then the others in order of contact creation (oldest first).", "quantifier": "every state and limb list", "why_tests_cant": "for all queues and lists", "anchors": ["src/contact_generation/contact_generation.cc:sortLimbs", "src/tools.cc:insertIfNew"]}
{"id": "C14", "title": "Affordance objects offered to a limb", "statement": "getAffObjectsForLimb(limb, affordances, filters) returns, when no filter's name contains the limb's name, all objects of all types in type order; otherwise exactly the objects of the types listed by the first such filter, in its order, provided these types exist (a filter naming a type that does not exist dereferences the end of the map); it throws when the result would be empty. The filter of the limb itself is not preferred: another limb's filter whose name contains this limb's name and sorts before it is used.", "quantifier": "every affordance map, filter map and limb name", "why_tests_cant": "depends on all combinations of names, including substrings", "anchors": ["src/contact_generation/contact_generation.cc:getAffObjectsForLimb"]}
{"id": "C15", "title": "maintain_contacts returns the first admissible candidate", "statement": "maintain_contacts examines the queued candidates in order. Without the stability test it succeeds with the first one for which projection and collision-freeness hold; it fails only if every candidate was examined; the unexamined candidates are left in the helper for a retry. With the stability test the first such candidate is returned, flagged stable iff its robustness exceeds the threshold, or, if it is not stable, replaced by a later candidate with at least as many contacts whose projection is stable; success is reported also for an unstable state, and the replacement is not tested for collisions.", "quantifier": "every candidate queue and every behaviour of projector, collision checker, reachability and stability oracle", "why_tests_cant": "oracles range over all possible outcomes", "anchors": ["src/contact_generation/contact_generation.cc:maintain_contacts", "src/contact_generation/contact_generation.cc:genColFree", "src/projection/projection.cc:projectToRootConfiguration"]}
{"id": "C16", "title": "Samples are tried best first and the first admissible one is used", "statement": "When neither reachability nor fallback matters (no stability requested), the contact generated for a limb uses the highest ranked sample whose projection onto the obstacle succeeds; no lower-ranked sample is examined after it.", "quantifier": "every ranked list of samples and every projection outcome", "why_tests_cant": "oracles range over all outcomes; ranked lists are unbounded", "anchors": ["src/contact_generation/contact_generation.cc:findValidCandidate", "src/contact_generation/contact_generation.cc:generate_contact"]}
{"id": "C17", "title": "What stability of a generated contact means", "statement": "When stability is requested for a new contact, without postural task: REACHABLE means the first sample whose projection is robust enough and reachable was kept, STABLE that none is both and the first robust one was kept, UNSTABLE (only if asked for) that none is robust and the most robust one was kept, and NO_CONTACT that there is none. In every mode REACHABLE is announced iff some sample is acceptable, and the stable flag is true iff the status is REACHABLE or STABLE. With the postural task the outcomes are characterised too: the plain retry keeps the flags of the first pass, so it may announce a contact in the empty configuration at an uninitialised placement. The first contact of a state is declared stable without test.", "quantifier": "every sample list, every robustness function and threshold", "why_tests_cant": "for all oracles", "anchors": ["src/contact_generation/contact_generation.cc:findValidCandidate", "src/contact_generation/contact_generation.cc:generate_contact"]}
{"id": "C18", "title": "Adding a contact updates all contact tables and the order", "statement": "Whenever generate_contact on limb L reports a contact, the returned state has L active with a position, normal and rotation, most recent in the order, and everything else of the working state's contacts is kept; except after a postural retry the placement is that of the effector in the returned configuration, where the limb is collision free. The contact counter nbContacts is left as it was.", "quantifier": "every previous state and limb", "why_tests_cant": "count consistency over all histories", "anchors": ["src/contact_generation/contact_generation.cc:findValidCandidate", "src/contact_generation/algorithm.cc:ComputeContacts"]}
{"id": "C19", "title": "Status of a generated contact determines success", "statement": "generate_contact reports success for REACHABLE; for STABLE only if unreachable contacts are accepted; for UNSTABLE only if stability was not requested; and with NO_CONTACT it never reports success; in the last case the returned configuration is collision free for the limb or left unchanged.", "quantifier": "every oracle outcome and flag combination", "why_tests_cant": "for all oracles and flag combinations", "anchors": ["src/contact_generation/contact_generation.cc:generate_contact", "src/projection/projection.cc:setCollisionFree"]}
{"id": "C20", "title": "Bound on the number of created contacts", "statement": "gen_contacts with maxContactCreations <= 1 never creates more than that many contacts, all on free limbs, and records no limb twice. In general the contact order of the result is that of the working state followed by incomplete parts of distinct arrangements that failed and then by contacts of the arrangement that succeeded, including its last limb; every arrangement has at most maxContactCreations distinct free limbs, but with maxContactCreations >= 2 the total can exceed the bound and a limb can be recorded twice.", "quantifier": "every helper, oracle and bound", "why_tests_cant": "unbounded candidate sequences", "anchors": ["src/contact_generation/contact_generation.cc:gen_contacts"]}
{"id": "C21", "title": "Search flags are restored", "statement": "gen_contacts leaves every parameter and flag of the helper, and generate_contact the full body's postural-task flag, as they found them, whatever the outcome. The helper's working state may be left with created contacts on free limbs, even on failure.", "quantifier": "every helper and oracle outcome", "why_tests_cant": "exit paths of nested loops for all oracles", "anchors": ["src/contact_generation/contact_generation.cc:gen_contacts", "src/contact_generation/contact_generation.cc:findValidCandidate"]}
{"id": "C22", "title": "oneStep terminates and reports truthfully", "statement": "oneStep examines each maintain candidate at most once, terminates, and on success the report's contactCreated_, multipleBreaks_ and contactMaintained_ flags are equivalent to: some contact was created w.r.t. the previous state; more than maxContactBreaks contacts broke; no contact broke and no reposition took place.", "quantifier": "every helper, every oracle", "why_tests_cant": "termination and flags for all oracle behaviours", "anchors": ["src/contact_generation/algorithm.cc:oneStep", "src/contact_generation/algorithm.cc:generateContactReport"]}
{"id": "C23", "title": "Repositioning: what success and failure mean", "statement": "repositionContacts reports success iff the returned state is stable, and then its last contact was generated with status REACHABLE or STABLE (reachability not required even when unreachable contacts are not accepted). On failure the contacts of the first limb of each group of the previous contacts are lost and every other contact is kept.", "quantifier": "every state and oracle", "why_tests_cant": "for all oracle outcomes", "anchors": ["src/contact_generation/contact_generation.cc:repositionContacts"]}
{"id": "C24", "title": "One contact per limb group in an initial state", "statement": "ComputeContacts without previous state returns a state whose tables describe exactly the limbs in its order, each once, with nbContacts their number; no two are of the same group, and for every limb of the robot either its group has a contact or the limb was tried and gave none. The state is declared stable whenever the robot has a limb: stability is not tested.", "quantifier": "every full body (limbs, groups) and oracle", "why_tests_cant": "all group structures and oracle outcomes", "anchors": ["src/contact_generation/algorithm.cc:ComputeContacts", "src/contact_generation/algorithm.cc:ContactExistsWithinGroup", "src/contact_generation/algorithm.cc:ComputeStableContact"]}
{"id": "C25", "title": "Limb registry: unique names", "statement": "A rejected addition changes nothing and is rejected exactly when the same table already has the name (or the heuristic is unknown, or the limb cannot be made); an accepted one adds the limb to its table and its name to its group, and nothing else; a heuristic is added exactly when its name is new, which is what the answer says; after any sequence of AddLimb / AddNonContactingLimb / toggleNonContactingLimb calls in which no name is added to both tables, a limb name denotes at most one limb, has one collision validation, and every registered limb is listed exactly once in the group of its effector; heuristics are never lost. A name added to both tables denotes two limbs and is listed twice.", "quantifier": "every sequence of registry operations", "why_tests_cant": "history dependent", "anchors": ["src/rbprm-fullbody.cc:AddLimb", "src/rbprm-fullbody.cc:AddNonContactingLimb", "src/rbprm-fullbody.cc:AddLimbPrivate", "src/rbprm-fullbody.cc:checkLimbData"]}
{"id": "C26", "title": "Limb lookups and toggling", "statement": "GetLimb finds a limb of the contacting set, or when allowed of the non contacting set, and throws iff there is none. toggleNonContactingLimb moves the named limb between the two sets and toggling twice restores the registry, whenever the name is in one set only; unknown names are reported and change nothing; for a name in both sets the limb of one is overwritten by the other.", "quantifier": "every registry state and name", "why_tests_cant": "history dependent", "anchors": ["src/rbprm-fullbody.cc:toggleNonContactingLimb"]}
{"id": "C27", "title": "Effector trajectories: first set wins, appends accumulate in order", "statement": "addEffectorTrajectory(path id, eff, list) registers the list iff none is registered for that pair, and reports it; the single-trajectory overload appends; the getters return precisely what was registered and report absence otherwise.", "quantifier": "every sequence of calls", "why_tests_cant": "history dependent", "anchors": ["src/rbprm-fullbody.cc:addEffectorTrajectory", "src/rbprm-fullbody.cc:getEffectorsTrajectories", "src/rbprm-fullbody.cc:getEffectorTrajectory"]}
{"id": "C28", "title": "Sample database: octree voxels index contiguous, complete and disjoint sample ranges", "statement": "After a database is built or re-sorted, the samples are a permutation of the generated ones, sample ids equal their index, and every voxel's (start,count) range holds exactly the samples of that voxel in their previous relative order; the ranges are disjoint and cover all samples.", "quantifier": "every list of samples and every assignment of samples to voxels", "why_tests_cant": "permutation invariant over arbitrary sizes", "anchors": ["src/sampling/sample-db.cc:alignSampleOrderWithOctree", "src/sampling/sample-db.cc:getSamplesPerVoxel"]}
{"id": "C29", "title": "Which samples the evaluation values belong to", "statement": "addValue without sorting makes values[name][i] the evaluation of the sample at index i normalised to [0,1] between the extreme values, which are recorded as bounds, and touches no other value; adding an existing name changes nothing; realignment moves values along with their samples. Sorting permutes the samples alone: after it values[name][i] is the value of the sample formerly at that index. The static value stored in each sample always remains the normalised evaluation of that very sample, in every database the constructor makes.", "quantifier": "every database, evaluation and sequence of addValue calls", "why_tests_cant": "history dependent and over arbitrary permutations", "anchors": ["src/sampling/sample-db.cc:addValue", "src/sampling/sample-db.cc:sortDB", "src/sampling/sample-db.cc:alignSampleOrderWithOctree"]}
{"id": "C30", "title": "Candidate query is complete and sorted", "statement": "GetCandidates returns exactly one report for each pair of a reported contact and a sample of the voxel it touches, sorted by decreasing heuristic value.", "quantifier": "every database, contact list and heuristic", "why_tests_cant": "all collision results and heuristics", "anchors": ["src/sampling/sample-db.cc:GetCandidates"]}
{"id": "C31", "title": "Database save/load round trip", "statement": "Loading a saved database yields the saved samples (ids renumbered, configuration segments, effector positions, jacobians) and values rearranged by voxel, every number rounded to the digits written, the bounds of values missing; the voxel table is exact. Two databases that differ beyond the digits written are saved alike. Loading ends on every text. The fields of a line are the pieces between its separators, the empty ones dropped, a final separator staying in the last field.", "quantifier": "every database whose sizes fit an int and every behaviour of number formatting", "why_tests_cant": "encode/decode law over unbounded data", "anchors": ["src/sampling/sample-db.cc:saveLimbDatabase", "src/sampling/sample-db.cc:SampleDB(std::ifstream&)", "src/sampling/sample.cc", "src/tools.cc"]}
{"id": "C32", "title": "Loading a sample changes only the limb's joints", "statement": "Load(sample, config) writes exactly the entries [startRank, startRank+length) of the configuration with the sample's configuration and leaves all other entries unchanged.", "quantifier": "every sample and configuration", "why_tests_cant": "frame condition over arbitrary sizes", "anchors": ["src/sampling/sample.cc:Load"]}
{"id": "C33", "title": "setCollisionFree keeps the current configuration if valid, else the first valid sample", "statement": "setCollisionFree(limb, state) keeps the configuration if collision free; otherwise uses the first sample of the limb's database that is; otherwise reports failure and leaves the configuration unchanged; only the limb's joints may change.", "quantifier": "every database and collision oracle", "why_tests_cant": "for all oracles", "anchors": ["src/projection/projection.cc:setCollisionFree"]}
{"id": "C34", "title": "A sample's contact point: nearest point of the triangle", "statement": "The contact position chosen for a sample lies in the triangle; no point of the triangle is nearer to the effector, except when the effector is beyond the second corner (outside of the side t0 t1, beyond t1 t2): there the parameter of the side t0 t2 is used on the side t0 t1, and the point is the nearest one only if both parameters agree. An effector in the triangle is its own contact position.", "quantifier": "every non-degenerate triangle and point of R^3", "why_tests_cant": "continuum of inputs with seven regions", "anchors": ["src/projection/projection.cc:closestPointInTriangle"]}
{"id": "C35", "title": "convexHull is a closed clockwise traversal enclosing all points", "statement": "convexHull(points) terminates and starts and ends with the same leftmost point, visiting only input points, for every non-empty list; for points in general position it is a strictly convex clockwise polygon with every input point on the inner side of each edge and the same convex hull as the points. With three aligned points an extreme point may be lost.", "quantifier": "every finite planar point set", "why_tests_cant": "unbounded sizes and degenerate layouts", "anchors": ["src/utils/algorithms.cc:convexHull", "src/utils/algorithms.cc:leftMost", "src/utils/algorithms.cc:isLeft"]}
{"id": "C36", "title": "containsHull decides membership", "statement": "containsHull(hull, p, eps) is true iff p is in the strictly convex closed clockwise polygon hull; contains(points, p, eps) terminates and is membership in the convex hull of any points in general position. For one point contains accepts everything, for two points it accepts their whole line. containsHull of one point compares the planar distance of p to it with eps; of two points it compares the distance between them with eps, wherever p is.", "quantifier": "every polygon, point list and point", "why_tests_cant": "continuum of inputs", "anchors": ["src/utils/algorithms.cc:containsHull", "src/utils/algorithms.cc:contains"]}
{"id": "C37", "title": "Polygon clipping is intersection", "statement": "compute2DIntersection of a convex subject and a clip polygon either is a convex polygon whose points are exactly the common points of both, or is undefined (dereferencing the end of an empty list) and then nothing is common; a subject inside the clip is returned unchanged. In space the result lies in the plane of the subject. The overload with iterators returns only common points but may shrink a subject inside the clip.", "quantifier": "every pair of convex polygons", "why_tests_cant": "continuum and unbounded sizes", "anchors": ["src/utils/algorithms.cc:compute2DIntersection", "src/utils/algorithms.cc:lineSect"]}
{"id": "C38", "title": "Plane projection and distances", "statement": "For a unit normal projectPointOnPlane returns a point of the plane, the displacement is along the normal, its length is distanceToPlane, no point of the plane is nearer, and projecting twice changes nothing; the normals the library computes are unit normals. For any normal the result is in the plane iff the normal is of length one or the point was already in the plane.", "quantifier": "every plane and every point", "why_tests_cant": "continuum", "anchors": ["src/utils/algorithms.cc:projectPointOnPlane", "src/utils/algorithms.cc:distanceToPlane"]}
{"id": "C39", "title": "ROM filter semantics of the reachability condition", "statement": "After any use of the validation object, a configuration passes the test with an explicit filter iff the trunk is collision free, joint bounds hold, the filter has no repeated names and every ROM named in it exists and touches an object of its affordances or is optional (has affordance settings and is not in the constructor's filter). With the default filter it passes iff trunk and bounds hold and every existing ROM of the constructor's filter that has affordance settings touches. ROMs outside the filter do not influence the verdict. The overloads without report dereference null.", "quantifier": "every set of ROMs, filter, history and collision outcome", "why_tests_cant": "all combinations", "anchors": ["src/rbprm-validation.cc:validateRoms", "src/rbprm-validation.cc:validate", "src/rbprm-rom-validation.cc:validate"]}
{"id": "C40", "title": "Reordering collision pairs never loses or mismatches a pair", "statement": "Bringing the colliding pair to the front, or shuffling, permutes the collision pairs and their requests by one and the same permutation. The report of a ROM says whether it reaches an obstacle and names the first one reached in the order of the pairs.", "quantifier": "every list of pairs, every collision outcome and every random sequence", "why_tests_cant": "all permutations", "anchors": ["src/rbprm-rom-validation.cc"]}
{"id": "C41", "title": "Path validation only accepts densely validated paths", "statement": "With a positive step RbPrmPathValidation::validate terminates and returns true iff the configurations at tmin, every step in between, and tmax are valid; on failure the report carries the first failing parameter and the valid part ends at the last valid sample before it, or is the single invalid point tmin when tmin itself fails (reverse: mirrored from tmax); an accepted path has a valid sample within a step of every parameter. With step zero the validation of a valid path never ends.", "quantifier": "every path, step, validity oracle and direction", "why_tests_cant": "termination and coverage on real intervals for all oracles", "anchors": ["src/rbprm-path-validation.cc:validate"]}
{"id": "C42", "title": "Which sequences of configurations dynamic validation accepts", "statement": "After setInitialReport, a sequence of validate calls passes iff each configuration has as many contacts as the reference ones, those whose contacts agree with the reference are judged by its contact cone (by none before the first change) and the others by the cone of their own contacts, which become the reference. Reports with another number of contacts are rejected. The verdict depends on history: a rejected call passes when repeated, and different ROMs in equal number count as the same contacts.", "quantifier": "every sequence of validate calls", "why_tests_cant": "history dependent caching", "anchors": ["src/dynamic/dynamic-validation.cc:validate"]}
{"id": "C43", "title": "Weighted triangle choice covers the unit interval", "statement": "The cumulative weights of the shooter's triangles are non-decreasing, the last is 1, each triangle is chosen exactly on a sub-interval of length area/total, and a choice is made for every r in [0,1].", "quantifier": "every non-empty list of triangles with positive total area and every r", "why_tests_cant": "continuum of r and unbounded list", "anchors": ["src/rbprm-shooter.cc:InitWeightedTriangles", "src/rbprm-shooter.cc:WeightedTriangle"]}
{"id": "C44", "title": "Shot positions lie on the affordance triangle, within bounds", "statement": "The random point drawn on a triangle lies in that triangle for every pair of random numbers in [0,1], and the root translation that is set is clamped into the translation bounds.", "quantifier": "every triangle, random numbers and bounds", "why_tests_cant": "continuum", "anchors": ["src/rbprm-shooter.cc:impl_shoot", "src/rbprm-shooter.cc:SetConfigTranslation", "src/rbprm-shooter.cc:Translate"]}
{"id": "C45", "title": "Shooting terminates and a found configuration was validated", "statement": "impl_shoot terminates after at most shootLimit x (2 displacementLimit + 1) validations; whenever it reports a configuration found, the configuration returned passed the validator; the root position returned is within the translation bounds; with a validator that accepts everything the first sample, on an affordance triangle, is returned. Without any triangle it is undefined.", "quantifier": "every validator and random sequence", "why_tests_cant": "for all oracles and random sequences", "anchors": ["src/rbprm-shooter.cc:impl_shoot"]}
{"id": "C46", "title": "removeNonGroundContacts keeps exactly the lowest contacts", "statement": "removeNonGroundContacts(contacts, threshold), for a non-empty map, keeps exactly the contacts whose height is within |threshold| of the lowest contact's, unchanged; at least one remains. An empty map must not be passed: its first element would be read.", "quantifier": "every contact map and threshold", "why_tests_cant": "universally quantified over maps of real vectors", "anchors": ["src/sampling/heuristic-tools.cc:removeNonGroundContacts"]}
{"id": "C47", "title": "What a copy of heuristic parameters keeps", "statement": "A HeuristicParam copied from another has the same contacts, CoM position, speed and acceleration, limb name and root placement, so that the dynamic and dynamicWalk heuristics give the same value, but no CoM path: the fixed step heuristics of a copy are always the static value of the sample. An assigned one keeps its own path, time on the path and limb reference, and takes everything else from the source.", "quantifier": "every HeuristicParam", "why_tests_cant": "field-wise frame", "anchors": ["src/sampling/heuristic-tools.cc:HeuristicParam"]}
{"id": "C48", "title": "Support-polygon inclusion test", "statement": "stability::Contains(support, point, xs, ys) ends for every set of rectangular contacts of which the first has a positive size and of which no corner is exactly above another at another height, and answers true for a point strictly inside the convex hull of all the corners (projected on the ground) and false for one outside; on the boundary it is true except on the right-hand side and at the top. Without a contact it answers false; sizes must be given for every contact (otherwise out-of-range reads). Zero sized contacts are not handled: one is a disc of 1 mm, two never support, three aligned ones may loop for ever and with four a point inside may be rejected.", "quantifier": "every set of contact points and CoM", "why_tests_cant": "continuum", "anchors": ["src/stability/support.cc"]}
{"id": "C49", "title": "Without any contact no step is possible", "statement": "oneStep called with a previous state that has no contact always fails, reports a repositioning attempt, and leaves a state without contacts in its report; contact generation must start from an initial state.", "quantifier": "every set of services, helper whose working and previous states have no contact", "why_tests_cant": "for every behaviour of the solvers", "anchors": ["src/contact_generation/algorithm.cc:oneStep", "src/contact_generation/contact_generation.cc:maintain_contacts"]}
{"id": "C50", "title": "Creating contacts never touches the maintained ones", "statement": "On success gen_contacts returns a state whose contacts on limbs in contact before have unchanged flag, normal, position and rotation, whose contact order extends the previous one, and whose new contacts are on limbs of the robot that were free.", "quantifier": "every helper, any number of allowed creations and any behaviour of the services", "why_tests_cant": "for all candidate lists and outcomes of projections", "anchors": ["src/contact_generation/contact_generation.cc:gen_contacts", "src/contact_generation/contact_generation.cc:generate_contact"]}
{"id": "C51", "title": "Consecutive states differ by at most one break and one creation", "statement": "ComputeContacts(previous,...) that succeeds without repositioning yields a state obtained from the previous one by breaking at most one contact and creating at most one, every other contact keeping its placement and place in the order.", "quantifier": "every consistent previous state with contacts, configuration, and behaviour of the services", "why_tests_cant": "for all outcomes of the solvers", "anchors": ["src/contact_generation/algorithm.cc:ComputeContacts", "src/contact_generation/algorithm.cc:oneStep"]}
{"id": "C52", "title": "Intersecting segments and meshes with a plane", "statement": "Every point intersectSegmentPlane returns lies on the segment and within 2e-5 of the plane (exactly on it when the segment is transversal), and a segment that meets the plane always yields a point; intersectPolygonePlane returns a closed hull of such points for the sides of the mesh, non-empty whenever a side meets the plane.", "quantifier": "every segment, plane and triangle mesh", "why_tests_cant": "continuum and unbounded meshes", "anchors": ["src/utils/algorithms.cc:intersectSegmentPlane", "src/utils/algorithms.cc:intersectPolygonePlane"]}
{"id": "C53", "title": "Points and pairs of triangles", "statement": "insideTriangle accepts every point of the triangle and of the points of its plane only those whose barycentric coordinates are at least -1e-5 over the squared double area (not a fixed distance: tiny triangles accept far points); intersectTriangles, when defined, returns only points of the first triangle's sides accepted by insideTriangle in the second's plane, and all of them when the first triangle straddles that plane; it overruns its arrays when the triangle lies on one side.", "quantifier": "every pair of non-degenerate triangles and every point", "why_tests_cant": "continuum", "anchors": ["src/utils/algorithms.cc:insideTriangle", "src/utils/algorithms.cc:intersectTriangles"]}
{"id": "C54", "title": "Projecting a point into a polygon", "statement": "projectPointInsidePlan returns the orthogonal projection when it is inside the polygon; otherwise the crossing, nearest to the point, of the line from the projection to the polygon's centre with the line of an edge: a point of the plane that can be outside the polygon. The returned number is the distance of the returned point to the query point, never less than that to the plane.", "quantifier": "every planar convex polygon, its unit normal and every point", "why_tests_cant": "continuum", "anchors": ["src/utils/algorithms.cc:projectPointInsidePlan"]}
{"id": "C55", "title": "Centre and area of a polygon", "statement": "For a closed convex polygon center is the mean of its vertices, inside the polygon and in its plane, and area is the sum of the areas of the triangles of a fan.", "quantifier": "every closed convex polygon", "why_tests_cant": "unbounded number of vertices", "anchors": ["src/utils/algorithms.cc:center", "src/utils/algorithms.cc:area"]}
{"id": "C56", "title": "Sampled orientations respect the limits", "statement": "When limits are given, the orientation drawn by the shooter is a unit quaternion whose rotation is a yaw about z, a pitch about y and a roll about x, in that order, each between the two limits given for it; without limits the orientation of the uniform shooter is kept; fewer than six limits are out-of-range reads.", "quantifier": "every limits, random numbers and configuration", "why_tests_cant": "continuum of random numbers and limits", "anchors": ["src/rbprm-shooter.cc:SampleRotation", "src/rbprm-shooter.cc:BoundSO3"]}
{"id": "C57", "title": "The shooter samples exactly the surfaces of the affordances asked for", "statement": "The triangles of the shooter are exactly the placed triangles of the objects of every affordance type named by some ROM's filter, each type once, with their normals; types without objects add nothing; an object that is not a triangle mesh is undefined behaviour.", "quantifier": "every affordance table, filter map and list of objects", "why_tests_cant": "unbounded tables", "anchors": ["src/rbprm-shooter.cc:getUsedSurfaces", "src/rbprm-shooter.cc:InitWeightedTriangles"]}
{"id": "C58", "title": "The support polygon of the heuristics", "statement": "The support polygon of a set of contacts is the list of their projections on the ground, and convexHull of any list of points ends normally with some of the points, no two of them within 1e-9 of each other in both coordinates, the leftmost one and one within 1e-9 of the rightmost included; when near points of the input are equal and no point is nearly one unit along x of another without being level with it, no half plane contains the hull without containing every input point. The projection used is the foot of the perpendicular on the plane, and the angle used is the one between the two directions seen from the center.", "quantifier": "every contact map, every list of planar points", "why_tests_cant": "infinitely many lists of real points of any length", "anchors": ["src/sampling/heuristic-tools.cc:convexHull2D", "src/sampling/heuristic-tools.cc:scanningProcess", "src/sampling/heuristic-tools.cc:computeSupportPolygon"]}
{"id": "C59", "title": "The weighted centre of a support polygon", "statement": "weightedCentroidConvex2D throws on no point, is the point itself for one point, the middle for two, and for more points, not all equal, ends and is the average of the averages of the groups obtained by cutting the cycle of vertices exactly at the sides longer than a tenth of the longest; for three or more equal points it never ends. On any output of convexHull it ends with a point inside the polygon.", "quantifier": "every list of planar points", "why_tests_cant": "infinitely many polygons, termination", "anchors": ["src/sampling/heuristic-tools.cc:weightedCentroidConvex2D"]}
{"id": "C60", "title": "The dynamic heuristic", "statement": "For every sample and parameters the dynamic heuristic ends with minus the distance in the plane between an interest point and a point amid the contacts, the sample's included, that are at most 25 cm above the lowest; it is never positive. The interest point weighs the speed along x by the least power of 1.5 that makes it dominate the acceleration; along y it does so only when the acceleration along x is not zero.", "quantifier": "every sample and parameters of the heuristics", "why_tests_cant": "termination and values for all real inputs", "anchors": ["src/sampling/heuristic.cc:dynamicHeuristic"]}
{"id": "C61", "title": "Order induced by the heuristics", "statement": "With random numbers in [0,1]: manipulability gives -1 exactly to a normal less vertical than 0.7, below every candidate on a better surface, and otherwise orders samples by static value up to 2e-9; EFORT is the non-negative quadratic form of J J^T times the vertical component of the normal; forward orders samples by ten times the static value (times the vertical component of the normal) plus the advance of the effector along the direction plus the square of its height, up to 1e-2, and backward by a hundred times the static value minus the advance; the fixed step heuristics order samples of equal static value by the distance to the target contact; dynamicWalk on level ground rewards advance by 100 on the side of the limb and retreat by 10 on the other.", "quantifier": "every samples, directions, normals and random draws", "why_tests_cant": "real-valued functions", "anchors": ["src/sampling/heuristic.cc"]}
{"id": "C62", "title": "Heuristics and analyses cannot be redefined", "statement": "AddHeuristic adds a heuristic under a new name and returns true; for a name already known it returns false and the registry is unchanged.", "quantifier": "every registry and name", "why_tests_cant": "frame over maps", "anchors": ["src/sampling/heuristic.cc:AddHeuristic"]}
{"id": "C63", "title": "Jacobian measures of a sample", "statement": "For every sample: manipulabilityTr and manipulabilityRot are the square root of the Gram determinant of the three translation, resp. rotation, rows of its jacobian, never negative, and zero exactly when the three rows are linearly dependent; with fewer rows the access is out of range. manipulability is the root of the stored product's determinant, clamped at 0. minimum/maximumSingularValue are the least and greatest singular value. isotropy does not depend on the greatest singular value: it is 1 - sqrt(1 - min^2) when min <= 1, 0 for the zero matrix, not a number when min > 1, and agrees with the ratio index 1 - sqrt(1 - (min/max)^2) exactly when min = 0 or max = 1.", "quantifier": "every sample, jacobian and list of singular values", "why_tests_cant": "algebraic identities over all jacobians; a test sees single matrices", "anchors": ["src/sampling/analysis.cc:manipulability", "src/sampling/analysis.cc:isotropy", "src/sampling/analysis.cc:minSing", "src/sampling/analysis.cc:maxSing"]}
{"id": "C64", "title": "Distance to the joint limits", "statement": "jointLimitsDistance of a sample evaluates the limb starting at the sample's rank (contact limbs first, then the others, first by name; it throws exactly if there is none): with m the least relative margin (v-lb)(ub-v)/(ub-lb)^2 over the bounded joints of the chain from the limb's root through first children to the effector, the value is 1 - exp(-5 m). Within the limits it is in [0,1), and 0 exactly when a joint is at a limit; beyond a limit it is negative; a joint with equal bounds is ignored at its value and gives minus infinity elsewhere.", "quantifier": "every robot tree, limb table, sample and configuration", "why_tests_cant": "ranges over all joint trees and values", "anchors": ["src/sampling/analysis.cc:distanceToLimits", "src/sampling/analysis.cc:distanceRec", "src/sampling/analysis.cc:getLimbFromStartRank"]}
{"id": "C65", "title": "Distance to the reference configuration", "statement": "ReferenceConfiguration of a sample is 100 minus the root of the weighted sum of squared differences over the limb's degrees of freedom; the weights are the posture weights when there is one per degree of freedom, otherwise 1, 10, 100 by axis (y, z, other). With non-negative weights it is at most 100, and 100 exactly when every positively weighted degree of freedom of the limb agrees with the reference; a negative weighted sum gives not a number.", "quantifier": "every robot, limb, weights, sample, reference configuration", "why_tests_cant": "sums over all weight vectors and differences", "anchors": ["src/sampling/analysis.cc:referenceConfiguration", "src/sampling/analysis.cc:computeWeightsFromAxis"]}
{"id": "C66", "title": "Self collision analysis", "statement": "The program keeps one database of full body configurations, topped up to 10000 by the valid ones among successive random shots, in order; the filling never ends exactly when the shots never provide enough valid ones. selfCollisionProbability is the fraction, in [0,1], of the database that is collision FREE once the limb is set to the sample. If the database still holds configurations of a robot with too few variables, the access is out of range.", "quantifier": "every collision test, sequence of shots, previous database, sample", "why_tests_cant": "histories of calls with several robots", "anchors": ["src/sampling/analysis.cc:selfCollisionProbability", "src/sampling/analysis.cc:FullBodyDB"]}
{"id": "C67", "title": "Quaternion distance and interpolation", "statement": "On unit quaternions the distance is 2 acos |<p,q>|: a metric on rotations (symmetric, triangle inequality, in [0,pi], zero exactly for p = q or p = -q, blind to the sign). interpolate starts at p and ends at q or -q; beyond a distance of 2e-4 it stays on unit quaternions and moves at constant angular speed (distance between the points at u and v is |u-v| times the distance), below it is a straight line of squared norm within 1e-8 of 1. Inner products of 1.001 or more in absolute value hit the assertion.", "quantifier": "every pair and triple of unit quaternions, every parameter", "why_tests_cant": "continuous domain", "anchors": ["src/tools.cc:interpolate", "src/tools.cc:distance", "src/tools.cc:angleBetweenQuaternions"]}
{"id": "C68", "title": "Locking a kinematic tree", "statement": "LockJointRec locks, at their value in the current configuration, exactly the joints reached from the given one without passing a spared joint; each once, parents before children, never a spared joint; the overload for one name is the overload for the singleton list.", "quantifier": "every tree of joints, list of spared names, configuration", "why_tests_cant": "recursion over all trees", "anchors": ["src/tools.cc:LockJointRec"]}
{"id": "C69", "title": "Obstacles given to and removed from collision tests", "statement": "The collision test of a limb gets every obstacle for every joint of the limb reached without passing an excluded one (with disableEffectorCollision: the effector, its joint and every last joint of a chain). The whole body test only gets the obstacles of the first contact limb and of the first non contact limb registered, with their exclusions. RemoveEffectorCollision removes an obstacle from the joint and downwards until a joint that does not have it. The one-limb RemoveNonLimbCollisionRec removes the obstacles from every joint with a body not under the limb; the several-limbs overload stops at the first missing pair, leaving the rest of that subtree untouched: complete if nothing is missing, without effect below the root if the root misses an obstacle.", "quantifier": "every tree, history of registrations, set of collision pairs, list of obstacles", "why_tests_cant": "histories and trees of any size", "anchors": ["include/hpp/rbprm/tools.hh:addLimbCollisionRec", "include/hpp/rbprm/tools.hh:RemoveEffectorCollision", "include/hpp/rbprm/tools.hh:RemoveNonLimbCollisionRec", "src/rbprm-fullbody.cc:AddLimbPrivate"]}
{"id": "C70", "title": "Rotation matrix helpers", "statement": "GetZRotMatrix and GetYRotMatrix write five entries only: the result is a rotation exactly when the four others happen to be zero, and then it turns vectors by theta about z, resp. y. GetXRotMatrix writes the sine at the wrong place: whatever the other entries, the result is not a rotation unless sin(theta) = 0.", "quantifier": "every angle and content of uninitialised memory", "why_tests_cant": "uninitialised memory varies from run to run", "anchors": ["src/tools.cc:GetZRotMatrix", "src/tools.cc:GetYRotMatrix", "src/tools.cc:GetXRotMatrix"]}
{"id": "C71", "title": "Launch and landing speed limits as angle intervals", "statement": "Of the free falls joining two points a horizontal distance X > 0 apart, those whose launch speed respects the bound are exactly those whose launch slope angle lies in the interval of the second constraint, empty exactly when no fall respects the bound; the same for the landing speed and the interval of the sixth constraint.", "quantifier": "every gravity, speed bounds, horizontal distance and height difference", "why_tests_cant": "continuum of falls", "anchors": ["src/planner/steering-method-parabola.cc:second_constraint", "src/planner/steering-method-parabola.cc:sixth_constraint"]}
{"id": "C72", "title": "A returned jump is feasible", "statement": "When the parabola steering method returns a path between two configurations that are not vertically aligned, free fall from the start with the path's launch velocity is at the goal after the path's length, with the path's landing velocity; launch and landing speeds respect the bounds, the height never exceeds the larger of the ceiling and the two ends, the path was accepted by the path validation, and at most the limit plus one path validations were made.", "quantifier": "every pair of configurations, parameters and path validation", "why_tests_cant": "continuum of configurations, unknown validation", "anchors": ["src/planner/steering-method-parabola.cc:compute_3D_path"]}
{"id": "C73", "title": "What a refused jump means", "statement": "The parabola steering method always answers. If it refuses without trying a path, then every free fall joining the two points within the speed bounds leaves less than the margin above the slope of the chord or rises above the ceiling; if it refuses after trying, it tried the limit plus one jumps, all within the speed bounds, and each failed validation or rose above the ceiling.", "quantifier": "every pair of configurations, parameters and path validation", "why_tests_cant": "completeness over a continuum of falls", "anchors": ["src/planner/steering-method-parabola.cc:compute_3D_path"]}
{"id": "C74", "title": "Configurations along a jump", "statement": "Strictly inside a returned jump whose ends differ in x, the velocity entries are those of the free fall and the acceleration entries (0,0,-g), while the position is on the straight chord, with the abscissas of the fall but strictly below it; the ends are those asked for. A jump with ends of equal x stays at its start position.", "quantifier": "every returned jump and time", "why_tests_cant": "continuum of times and jumps", "anchors": ["src/planner/timed-parabola-path.cc:impl_compute", "src/planner/parabola-path.cc:impl_compute"]}
{"id": "C75", "title": "Evaluating, reversing and extracting a parabola path", "statement": "A parabola path is at its start at 0, at its end from its length on, in between linear in position with zero extra entries; its reverse is the path read backwards, with launch and landing data swapped (reversing twice is the identity); extracting [a,b] gives length b-a and the same positions; extracting backwards gives a negative length and a path stuck at its end.", "quantifier": "every parabola path, parameter and interval", "why_tests_cant": "continuum of parameters", "anchors": ["src/planner/parabola-path.cc:impl_compute", "src/planner/parabola-path.cc:reverse", "src/planner/parabola-path.cc:extract"]}
{"id": "C76", "title": "Reversed jumps and parameter ranges", "statement": "The reverse of a returned jump has a negative length and every positive parameter gives its end, the start of the jump; the range of parameters reported for a jump is [0, horizontal distance] although its length is that distance over the horizontal launch speed.", "quantifier": "every returned jump with ends of different x and every time", "why_tests_cant": "continuum", "anchors": ["src/planner/timed-parabola-path.cc:reverse", "src/planner/timed-parabola-path.cc:TimedParabolaPath"]}
{"id": "C77", "title": "The target of a random jump", "statement": "The target of a random jump is the point the free fall reaches after three seconds exactly when the start lies on the vertical plane through the origin in the direction of the jump; otherwise it is out of the plane of the jump.", "quantifier": "every direction, angle, speed and start", "why_tests_cant": "continuum", "anchors": ["src/planner/steering-method-parabola.cc:compute_random_3D_path"]}
{"id": "C78", "title": "Trajectory of the centre of mass", "statement": "A ComTrajectory is at its initial point at 0, at its end point at its length, and elsewhere on the uniformly accelerated motion; it is that motion throughout exactly when the end given is the one the motion reaches. Extracting [a,b] gives length b-a and the same points. Extracting backwards goes on forwards from the start point and jumps to its end: it is the reverse exactly when the speed at the start point is zero.", "quantifier": "every trajectory, interval and time", "why_tests_cant": "continuum of times and intervals", "anchors": ["src/interpolation/com-trajectory.cc:impl_compute", "src/interpolation/com-trajectory.cc:extract"]}
{"id": "C79", "title": "Polynomial trajectories", "statement": "A PolynomTrajectory takes the values of its polynomial at the times of its range, and so do its extractions, unless the range ends at time 0: then every time gives the initial value. Its first and last configurations are the values at the ends of its range, for its extractions too.", "quantifier": "every polynomial, range and time", "why_tests_cant": "continuum", "anchors": ["src/interpolation/polynom-trajectory.cc:impl_compute", "src/interpolation/polynom-trajectory.cc:extract"]}
{"id": "C80", "title": "Bezier paths", "statement": "A BezierPath on a part of the range of a curve that starts at time 0 gives at time t the position of the curve at t and the other entries interpolated between the two configurations at t over the length of the curve; outside of its range it is at its ends, which are initial() and end(). For a curve starting at another time the entries interpolated are off by a constant. Times outside of the curve throw.", "quantifier": "every curve, range, configurations and time", "why_tests_cant": "continuum", "anchors": ["src/interpolation/bezier-path.cc:impl_compute", "src/interpolation/bezier-path.cc:initial", "src/interpolation/bezier-path.cc:end"]}
{"id": "C81", "title": "Evaluating a path with time-dependent constraints", "statement": "At parameter t a TimeConstraintPath has the time entry and the other entries interpolated between its ends, then projected with the right hand sides of the time-dependent equations set to their references at that time, the last one winning; the result does not depend on which paths sharing these equations were evaluated, created or extracted before.", "quantifier": "every path, parameter, projector and history of uses of paths that share its equations", "why_tests_cant": "all interleavings of evaluations of paths sharing mutable equations", "anchors": ["src/interpolation/time-constraint-path.cc:impl_compute", "include/hpp/rbprm/interpolation/time-constraint-utils.hh:UpdateConstraints", "include/hpp/rbprm/interpolation/interpolation-constraints.hh:VecRightSide"]}
{"id": "C82", "title": "Creating and extracting paths with time-dependent constraints", "statement": "Creating such a path throws exactly when one of its ends does not satisfy the constraints at its own time. Extracting [a,b] gives a path of length |b-a| whose ends are the projected configurations at a and b with the interpolated time entry, running through the same times in the same or reverse order; it throws when a projection fails, and its time entries are not numbers for a path of length zero. Replacing an end keeps the time entry.", "quantifier": "every path, interval, projector", "why_tests_cant": "continuum and unknown projector", "anchors": ["src/interpolation/time-constraint-path.cc:extract", "src/interpolation/time-constraint-path.cc:checkPath", "include/hpp/rbprm/interpolation/time-constraint-path.hh:initialConfig"]}
{"id": "C83", "title": "Validation of paths with time-dependent constraints", "statement": "The validation hands a path over to the discretized validation exactly when the time does not decrease from its start to its end and, of its ten tenths, each of the first nine moves the entries beyond the root by at most a fifth of the distance between the ends; otherwise it refuses it with the extraction at its start as valid part. The last tenth is then at most 2.8 times the distance between the ends. Straight paths pass: every step is a tenth.", "quantifier": "every path, projector and world of right hand sides", "why_tests_cant": "unknown projector, continuum", "anchors": ["src/interpolation/time-constraint-path-validation.cc:validate"]}
{"id": "C84", "title": "Projecting a state keeps its contacts", "statement": "When projectToRootPosition or projectToComPosition reports success, the effector of every contact recorded in the state is, in the new configuration, within 1e-4 of its recorded position and, for 6-DOF limbs, within 1e-4 rad of its recorded orientation, and the root or centre of mass is within 1e-4 of the target; everything else in the state is unchanged whether or not it succeeds. They throw exactly when a recorded contact is not one of a known limb with an effector frame (and a rotation for 6-DOF limbs).", "quantifier": "every robot, full body, state, target and every solver that only reports success when its mandatory constraints hold", "why_tests_cant": "it must hold for every state with any set of contacts and every placement of the effector frames in their joints", "anchors": ["src/projection/projection.cc:CreateContactConstraints", "src/projection/projection.cc:projectToRootPosition", "src/projection/projection.cc:projectToComPosition"]}
{"id": "C85", "title": "Projecting on a root configuration", "statement": "On success projectToRootConfiguration keeps the contacts and, without offset, gives every joint that is neither a limb root nor below one exactly its value in the requested configuration (limb joints are left to the solver); with an offset, the point of the root frame at that offset is within 1e-4 of the requested root position.", "quantifier": "every kinematic tree, set of limbs, configuration, state and offset", "why_tests_cant": "trees and sets of limbs are unbounded", "anchors": ["src/projection/projection.cc:projectToRootConfiguration", "src/projection/projection.cc:LockFromRoot", "src/projection/projection.cc:LockFromRootRec"]}
{"id": "C86", "title": "Collision-free projection on a centre of mass", "statement": "When projectToColFreeComPosition succeeds the configuration is collision free for the whole body, the contacts and the centre of mass hold within 1e-2, and every free limb could be made collision free from the first projected configuration; the limb samples found on the way are not part of the result.", "quantifier": "every full body, state, target, solver and validations", "why_tests_cant": "any number of limbs and samples", "anchors": ["src/projection/projection.cc:projectToColFreeComPosition", "src/projection/projection.cc:setCollisionFree"]}
{"id": "C87", "title": "Pose aimed at by a new contact", "statement": "The pose a contact is projected to puts the contact point (the effector frame's offset) at the requested position plus 1 mm along the normal; its orientation is the requested rotation if one is given, else a rotation that brings the effector's normal on the contact normal, exactly unless they are within about 1e-6 rad of opposite without being so, and within 3e-6 always. GetRotationMatrix returns such a rotation for every pair of non-zero vectors.", "quantifier": "all effector poses, normals, positions and rotations", "why_tests_cant": "it quantifies over all real vectors, including opposite ones", "anchors": ["src/projection/projection.cc:computeProjectionMatrix", "src/tools.cc:GetRotationMatrix"]}
{"id": "C88", "title": "Creating a contact by projection", "statement": "When projectStateToObstacle or projectSampleToObstacle succeeds, the new configuration passed the validation, the limb's contact is recorded with the effector's actual position and rotation, which are within tolerance (1e-4, or 1e-3 with the postural task, which frees the rotation about one axis) of the pose aimed at, the other contacts of the state still hold (first function), and the joints outside the limb have the values of the device's current configuration (second function, or locked joints). On failure the state is returned without that limb's contact (first function) or unchanged (second).", "quantifier": "every state, limb, target, sample, solver and validation", "why_tests_cant": "all states and solvers", "anchors": ["src/projection/projection.cc:projectStateToObstacle", "src/projection/projection.cc:projectSampleToObstacle", "src/projection/projection.cc:projectEffector"]}
{"id": "C89", "title": "Effector constraints of the interpolation", "statement": "The position constraint created for an effector holds up to a tolerance exactly when the effector frame is that close to the target. The orientation constraint does so when the frame's placement in its joint is not turned; otherwise it drives the frame to P T P instead of T (P the placement's rotation, T the target), which can be half a turn away.", "quantifier": "every robot, frame, target and tolerance", "why_tests_cant": "all rotations", "anchors": ["include/hpp/rbprm/interpolation/interpolation-constraints.hh:createPositionMethod", "include/hpp/rbprm/interpolation/interpolation-constraints.hh:createOrientationMethod"]}
{"id": "C90", "title": "Weights of the postural tasks", "statement": "The interpolation's postural task has one weight per degree of freedom: none for the root position and the last seven ones beyond index 9, with the ratio 50/10/1 between root orientation, chest and the rest, scaled so that the weights 3 to 9 average to one; with fewer than ten degrees of freedom it writes out of range. The contact projection's task uses the body's posture weights when there is one per degree of freedom and ones otherwise.", "quantifier": "every number of degrees of freedom and every weight vector", "why_tests_cant": "all sizes", "anchors": ["include/hpp/rbprm/interpolation/interpolation-constraints.hh:CreatePosturalTaskConstraint", "src/projection/projection.cc:CreatePosturalTaskConstraint"]}
{"id": "C91", "title": "Reachability bodies follow the robot", "statement": "After any history of configuration changes, extra-dimension changes and reference updates, every ROM of an RbPrmDevice has the configuration and number of extra variables of the base robot, provided it had at the start; a reference read back is the last one set for that ROM (unspecified if none was); currentConfiguration returns whether the base changed.", "quantifier": "every history of calls and every set of ROMs", "why_tests_cant": "arbitrarily long histories", "anchors": ["src/rbprm-device.cc:RbPrmDevice::currentConfiguration", "src/rbprm-device.cc:RbPrmDevice::setDimensionExtraConfigSpace", "src/rbprm-device.cc:RbPrmDevice::setEffectorReference"]}
{"id": "C92", "title": "The balance library is given exactly the recorded contacts", "statement": "The points and normals handed to the centroidal-dynamics library are those of the contacts recorded in the state, in alphabetical order with grasping limbs last: one point for a point contact (position plus offset, the effector being turned so that its normal is the contact's), the four corners of a rectangle centred on the placed offset with the limb's half sizes (or the requested ones) for a planar contact, each with the recorded normal (scaled to length 1 unless the limb grasps), the robot's friction and mass centre. The reachability tests use half sizes of 5 cm. The rectangle's edges are orthogonal to the placed limb normal only if that normal is vertical or horizontal in the effector frame.", "quantifier": "every robot, state, requested size and algorithm", "why_tests_cant": "all contact sets and rotations", "anchors": ["src/stability/stability.cc:setupLibrary", "src/stability/stability.cc:computeRectangleContact", "src/stability/stability.cc:computePointContact", "src/contact_generation/reachability.cc:computeContactConeForState"]}
{"id": "C93", "title": "Meaning of the number returned by the balance test", "statement": "IsStable returns, for the polytope algorithm (always used when a limb grasps), the largest double if the library says balanced and -1 if not; for the others the robustness the library computed; -1.1 when the library reports an infeasible or unbounded problem, and minus the largest double for any other failure.", "quantifier": "every robot, state, acceleration, centre of mass and library answer", "why_tests_cant": "all library answers", "anchors": ["src/stability/stability.cc:IsStable"]}
{"id": "C94", "title": "What the balance test depends on", "statement": "IsStable depends on the state only through its configuration and the recorded positions, normals and rotations (not on flags, order or number of contacts). In static mode the acceleration has no effect; otherwise a zero acceleration is replaced by the one stored in the extra part of the configuration when there are at least six extra variables.", "quantifier": "every pair of states, every acceleration", "why_tests_cant": "relation between two executions", "anchors": ["src/stability/stability.cc:IsStable"]}
{"id": "C95", "title": "A failed wrench cone constrains nothing", "statement": "ComputeCentroidalCone returns the library's polytope when it could be computed; otherwise it returns six zero rows with zero right-hand sides, which every wrench satisfies.", "quantifier": "every state and library answer", "why_tests_cant": "all wrenches", "anchors": ["src/stability/stability.cc:ComputeCentroidalCone"]}
{"id": "C96", "title": "Kinematic constraints loaded from a mesh", "statement": "The constraints loaded from a mesh, placed at a frame, hold at a point exactly when the point, seen from the frame, is on the inner side of every triangle and (if a positive distance is given) at least that high; a missing file gives no constraint; they do not depend on the world frame; if all vertices satisfy them then so does their convex hull.", "quantifier": "every mesh, frame and point", "why_tests_cant": "all meshes, frames and points", "anchors": ["src/contact_generation/kinematics_constraints.cc:loadConstraintsFromObj", "src/contact_generation/kinematics_constraints.cc:getInequalitiesAtTransform", "src/contact_generation/kinematics_constraints.cc:verifyKinematicConstraints"]}
{"id": "C97", "title": "Kinematic constraints of a state", "statement": "The kinematic constraints of a state hold at a point exactly when the point is within the range of every limb flagged in contact, at the effector's placement in the state's configuration; the call throws exactly when a flagged limb is unknown; the variants for one limb and for all limbs select the same rows.", "quantifier": "every robot, state and point", "why_tests_cant": "all robots, states and points", "anchors": ["src/contact_generation/kinematics_constraints.cc:computeKinematicsConstraintsForState", "src/contact_generation/kinematics_constraints.cc:computeAllKinematicsConstraints", "src/contact_generation/kinematics_constraints.cc:computeKinematicsConstraintsForLimb", "src/contact_generation/kinematics_constraints.cc:verifyKinematicConstraints"]}
{"id": "C98", "title": "Balance constraints on the centre of mass", "statement": "The inequalities on the centre of mass computed from a wrench polytope H w <= h hold at x exactly when the wrench of gravity and acceleration at x satisfies H w <= |row| h (the rows are scaled to length 1 but not h), if no row is zero.", "quantifier": "every polytope, mass, gravity, acceleration and point", "why_tests_cant": "all polytopes and points", "anchors": ["src/contact_generation/reachability.cc:computeStabilityConstraints"]}
{"id": "C99", "title": "Statuses of the reachability test", "statement": "isReachable answers NO_CONTACT_VARIATION exactly when no limb's contact differs by more than 1 cm, TOO_MANY_CONTACTS_VARIATION exactly when two or more limbs differ; CONTACT_BREAK_FAILED and CONTACT_CREATION_FAILED only with an intermediate state for a moved contact; never SAME_ROOT_POSITION or QUASI_STATIC. With complete states it returns, and does not answer UNABLE_TO_COMPUTE unless the library fails; with an empty contact queue its front is read (undefined behaviour).", "quantifier": "every pair of states", "why_tests_cant": "all pairs of states", "anchors": ["src/contact_generation/reachability.cc:isReachable"]}
{"id": "C100", "title": "Reachable means a centre of mass that fits both states", "statement": "When one contact is broken (made, moved), isReachable answers REACHABLE exactly when some point is balanced in the state with fewer contacts and within the kinematic range of the one with more (both conditions in both states for a moved contact); the point reported satisfies this and, among all that do, is the nearest to the mean of the contact points at the mean height of the two centres of mass; if unchanged limbs have unchanged placements it is also in range of the other state.", "quantifier": "every robot, pair of states, acceleration", "why_tests_cant": "all points", "anchors": ["src/contact_generation/reachability.cc:isReachable", "src/contact_generation/reachability.cc:intersectionExist", "src/contact_generation/reachability.cc:computeConstraintsForState"]}
{"id": "C101", "title": "Reachability through an intermediate state", "statement": "isReachableIntermediate answers REACHABLE exactly when both steps are reached (or vary nothing), and reports the mean of the two points; UNREACHABLE exactly when both are; otherwise the step that failed. When the first step varies nothing its point is the origin, so the point reported is half-way to the origin; the acceleration given to isReachable is dropped in this mode.", "quantifier": "every triple of states, every acceleration", "why_tests_cant": "all triples of states", "anchors": ["src/contact_generation/reachability.cc:isReachableIntermediate", "src/contact_generation/reachability.cc:isReachable"]}
{"id": "C102", "title": "Cases the dynamic reachability test does not compute", "statement": "isReachableDynamic answers SAME_ROOT_POSITION when the root positions are equal; otherwise NO_CONTACT_VARIATION when nothing varies, TOO_MANY_CONTACTS_VARIATION when two limbs lose or two limbs make a contact, UNABLE_TO_COMPUTE when a contact is only made from at most one contact or only lost leaving at most one; in these cases no path is stored and the next state's configuration is unchanged. With complete states and long enough configurations it returns.", "quantifier": "every pair of states, timings and number of points", "why_tests_cant": "all pairs of states", "anchors": ["src/contact_generation/reachability.cc:isReachableDynamic"]}
{"id": "C103", "title": "Dynamic reachability", "statement": "In the other cases isReachableDynamic answers QUASI_STATIC with the path through the quasi-static point if asked and found; else it gives the optimiser the ranges and contact sets of the two or three phases, the two centres of mass and velocities, tries the given durations (if one per phase) or the rows of a table except the last one, in order, and answers REACHABLE with the first that works: the timings, contiguous phase paths from 0 to their sum, and the next configuration with the final velocity and acceleration written in; UNREACHABLE if none works, next configuration unchanged.", "quantifier": "every robot, pair of states, timings, number of points, optimiser", "why_tests_cant": "all optimiser answers", "anchors": ["src/contact_generation/reachability.cc:isReachableDynamic"]}
{"id": "C104", "title": "Shortcutting returns the same path or a shorter one", "statement": "RandomShortcutDynamic's optimize returns a path that goes from the first to the last configuration of the path given, its elements being contiguous; it is the object given, or another one that is shorter by more than ten times the machine precision; the object given keeps its elements.", "quantifier": "every path of positive length, every sequence of random draws, every steering, projector and validation, when extraction of a part never fails", "why_tests_cant": "all draws and all paths", "anchors": ["src/planner/random-shortcut-dynamic.cc:optimize", "src/planner/random-shortcut-dynamic.cc:steer"]}
{"id": "C105", "title": "Every element of a shortcut path was validated or comes from the path given", "statement": "Every element of the path returned by optimize was accepted by the path validation or was obtained by successive extractions from the path given: any property ensured by the validation and kept by extraction holds for the result, even when some extractions fail.", "quantifier": "every path, draws, and services, whatever fails", "why_tests_cant": "all histories of shortcuts", "anchors": ["src/planner/random-shortcut-dynamic.cc:optimize"]}
{"id": "C106", "title": "Shortcutting does not fail", "statement": "When at least one loop is asked for and no evaluation or extraction fails, optimize raises no exception and dereferences no null path.", "quantifier": "every path of positive length and every sequence of draws", "why_tests_cant": "all draws", "anchors": ["src/planner/random-shortcut-dynamic.cc:optimize"]}
{"id": "C107", "title": "Shortcutting ends", "statement": "The number of rounds of optimize is bounded by n((n-1)K+1), n being the number of loops asked for and K such that 1.0001^K is at least the length over three times the least distance between sampled times, whatever is drawn.", "quantifier": "every path of positive length and every sequence of draws", "why_tests_cant": "unbounded loop over random draws", "anchors": ["src/planner/random-shortcut-dynamic.cc:optimize"]}
{"id": "C108", "title": "The orientation optimizer returns the path given", "statement": "OrientedPathOptimizer's optimize ends without error on a path made of kinodynamic elements and returns a path with exactly the same elements (the reoriented ones are written in copies and lost).", "quantifier": "every path made of kinodynamic elements, every steering and validation", "why_tests_cant": "all paths and validations", "anchors": ["src/planner/oriented-path-optimizer.cc:optimize", "src/planner/oriented-path-optimizer.cc:checkReplaceOrientation"]}
{"id": "C109", "title": "The linear problem stored at a node is Newton and Euler's equation", "statement": "The matrices stored by a node are such that an acceleration satisfies the problem if and only if there are forces, each in the friction pyramid of one of the contact points of the ROMs touched (one, or four corners), whose sum with gravity gives the mass times the acceleration and whose moments about the centre of mass cancel.", "quantifier": "every set of ROM contacts with unit normals, size, mass, non negative friction coefficient, centre of mass and heading", "why_tests_cant": "all accelerations and forces", "anchors": ["src/planner/rbprm-node.cc:fillNodeMatrices", "src/planner/rbprm-node.cc:computeGIWC"]}
{"id": "C110", "title": "Forces of the node's pyramids respect friction", "statement": "Every force of the friction pyramid used at a node pushes along the normal and its tangential part is at most the friction coefficient times the normal part. The tangents are derived from the first axis of the root, turned by the root's quaternion.", "quantifier": "every unit normal, heading and force", "why_tests_cant": "all forces", "anchors": ["src/planner/rbprm-node.cc:computeGIWC"]}
{"id": "C111", "title": "The surface chosen for a ROM is the nearest of its reference", "statement": "chooseBestContactSurface designates for every ROM with several touched surfaces a surface at least distance of the reference point (the first one among equals; the first of the list when none meets the ROM), keeps the others, and stops at the first report that has no list.", "quantifier": "every map of reports", "why_tests_cant": "all reports", "anchors": ["src/planner/rbprm-node.cc:chooseBestContactSurface"]}
{"id": "C112", "title": "Kinodynamic steering from a node", "statement": "A path steered from a node is either the path computed with the robot's own bounds, when the acceleration admissible along its direction exceeds them, or a path computed with bounds equal to the admissible acceleration along that direction (less 0.01, and at least the vertical bound), of length at most 50, whose acceleration just after the start is admissible, cut just before the first change of phase whose acceleration is not admissible.", "quantifier": "every node, target, kinodynamic steering and admissibility test with non negative phase durations", "why_tests_cant": "all paths and instants", "anchors": ["src/planner/rbprm-steering-kinodynamic.cc:impl_compute", "src/planner/rbprm-steering-kinodynamic.cc:setSteeringMethodBounds", "src/planner/rbprm-steering-kinodynamic.cc:computeDirection"]}
{"id": "C113", "title": "Kinodynamic steering to a node", "statement": "Likewise a path steered to a node is cut just after the last change of phase whose acceleration is not admissible.", "quantifier": "every node, origin, kinodynamic steering and admissibility test with non negative phase durations", "why_tests_cant": "all paths and instants", "anchors": ["src/planner/rbprm-steering-kinodynamic.cc:impl_compute", "src/planner/rbprm-steering-kinodynamic.cc:setSteeringMethodBounds"]}
{"id": "C114", "title": "Every edge of the dynamic planner's roadmap joins its nodes", "statement": "Whatever the sequence of answers of the shooter, the nearest-node search, the steering methods, the path validation and the projectors, every edge of the roadmap built from the first node and the goals by the direct connections followed by any number of steps carries a path that starts at the configuration of its first node, ends at the configuration of its second node, and was found valid by the path validation (or is reduced to a point); the only other edges are jumps, made only when parabolas are asked for, whose path joins the two configurations except for their velocities; the first one leaves with the initial velocity of the parabola, and the second is its end, or has its velocity of impact.", "quantifier": "every roadmap, number of steps, goals and sequence of answers of the services", "why_tests_cant": "any number of draws in any order, each service free to answer differently at each call", "anchors": ["src/planner/dynamic-planner.cc:oneStep", "src/planner/dynamic-planner.cc:extendInternal", "src/planner/dynamic-planner.cc:extendParabola", "src/planner/dynamic-planner.cc:tryConnectInitAndGoals"]}
{"id": "C115", "title": "A component joined to the start means a solution", "statement": "In this roadmap each node of the start component can be reached from the first node along the edges, and from each node of a goal's component this goal can be reached; so as soon as an edge goes from the start component to the component of a goal, the goal is reached from the first node along the edges, in their direction.", "quantifier": "every roadmap built by the planner", "why_tests_cant": "reachability is an invariant over all histories of extensions", "anchors": ["src/planner/dynamic-planner.cc:oneStep", "src/planner/dynamic-planner.cc:tryConnectInitAndGoals"]}
{"id": "C116", "title": "A drawn configuration that can be joined both ways solves the problem", "statement": "When the configuration drawn can be joined by a valid path from every node of the start component and to every node of the first goal component, the step connects this goal to the first node; likewise when a goal can be joined directly from the first node, trying the direct connections connects it.", "quantifier": "every roadmap, drawn configuration and nearest-node answer", "why_tests_cant": "all nodes the nearest-node search may return", "anchors": ["src/planner/dynamic-planner.cc:oneStep", "src/planner/dynamic-planner.cc:tryConnectInitAndGoals"]}
{"id": "C117", "title": "The dynamic planner only adds to the roadmap", "statement": "Steps and direct connections never remove nor change a node's configuration or an edge, and every node ends with contact-wrench-cone matrices computed for its own configuration.", "quantifier": "every roadmap, number of steps and sequence of answers of the services", "why_tests_cant": "any history of steps", "anchors": ["src/planner/dynamic-planner.cc:oneStep", "src/planner/dynamic-planner.cc:computeGIWC", "src/planner/dynamic-planner.cc:tryConnectInitAndGoals"]}
{"id": "C118", "title": "The dynamic planner's steps are defined", "statement": "No step and no direct connection reads a missing report, node or component: with the services answering as documented the planner runs any number of steps (a direct path of null duration while jumps are asked for is the exception: no report is produced and it is read).", "quantifier": "every roadmap, number of steps and sequence of answers of the services", "why_tests_cant": "any history of steps", "anchors": ["src/planner/dynamic-planner.cc:oneStep", "src/planner/dynamic-planner.cc:extendInternal", "src/planner/dynamic-planner.cc:extendParabola", "src/planner/dynamic-planner.cc:tryParabolaPath", "src/planner/dynamic-planner.cc:tryConnectInitAndGoals"]}
{"id": "C119", "title": "Verdict of the dynamic path validation", "statement": "Whatever was validated before, a path validated with a filter and a positive step is tested every step from its start, then at its end (from its end backwards in reverse); it is accepted exactly when at each of these instants it can be evaluated, the configuration is free, in bounds and with all the ROMs of the filter in contact (or excused), and the sequence of contacts and accelerations passes the dynamic validation started from the contacts of the first configuration; otherwise it is rejected at the first instant at which this fails and the valid part ends at the instant before. Without filter the dynamic validation is likewise started from the contacts of the first configuration tested.", "quantifier": "every path, range, positive step, filter, direction and state of the validations", "why_tests_cant": "the validations have a state changed by every call, and the number of instants is unbounded", "anchors": ["src/dynamic/dynamic-path-validation.cc:validate", "src/dynamic/dynamic-validation.cc:validate"]}
{"id": "C120", "title": "A motion that keeps its contacts is dynamically accepted", "statement": "A path along which the same ROMs stay in contact, each with a single obstacle, and whose configurations are all acceptable, is accepted whatever its accelerations.", "quantifier": "every path, step, filter and state of the validations", "why_tests_cant": "every instant of the path, any number of instants", "anchors": ["src/dynamic/dynamic-path-validation.cc:validate"]}
{"id": "C121", "title": "A filter that leaves out a ROM in contact rejects the path at its start", "statement": "Because the initial contacts are those of the default filter, a path is rejected at its first configuration as soon as one ROM in contact there is not in the (smaller, non empty) filter it is validated with.", "quantifier": "every path, step, filter strictly included in the default one, and state of the validations", "why_tests_cant": "all filters and histories", "anchors": ["src/dynamic/dynamic-path-validation.cc:validate"]}
{"id": "C122", "title": "Samples generated for a limb", "statement": "Generating the samples of a limb gives max(1, n) samples numbered from 0. Sample 0 holds the joint values of the neutral configuration, with the geometry of the placements last computed on the robot; each of the others holds the joint values and the geometry of one configuration drawn: its effector position, placed in the frame of the limb's parent, is the position of the effector plus the offset; its position in the limb frame is the vector from the shifted origin of the limb to that point; its jacobian, the product of this with its transpose, and a static value which is the square root of the determinant when positive and zero otherwise. Loading a sample into the configuration it was drawn from leaves this configuration unchanged.", "quantifier": "every robot kinematics, limb, offset, number of samples and sequence of drawn configurations", "why_tests_cant": "the kinematics and the random draws are arbitrary and the number of samples is unbounded", "anchors": ["src/sampling/sample.cc:GenerateSamples", "src/sampling/sample.cc:Sample", "src/sampling/sample.cc:ComputeEffectorPosition", "src/sampling/sample.cc:ComputeEffectorPositionInLimbFrame"]}
{"id": "C123", "title": "Creation of a limb", "statement": "Creating a limb takes as default rotation the transpose of the effector's rotation at the configuration the robot's placements were last computed at, expresses offset and normal through it, stores as reference position the effector's position in the root frame at the neutral configuration, and leaves the robot in its neutral configuration with its placements up to date. Without a name the effector is the joint at the end of the chain of first children.", "quantifier": "every robot, offset, normal, and state of the robot before", "why_tests_cant": "depends on the state left by everything done before with the robot", "anchors": ["src/rbprm-limb.cc:RbPrmLimb", "src/rbprm-limb.cc:GetEffector", "src/rbprm-limb.cc:GetEffectorTransform", "src/rbprm-limb.cc:computeEffectorReferencePosition"]}
{"id": "C124", "title": "A limb saved to a file and read again", "statement": "Reading the file written for a limb gives a limb with the same names, the same contact type, numbers equal up to the rounding of the text format and a database that is the saved one, rearranged by voxel; the limb's offset is left uninitialised, the collision and grasp flags are those of the call and the constraints are those of the default file.", "quantifier": "every limb, database and text rounding", "why_tests_cant": "all names, numbers and database sizes", "anchors": ["src/rbprm-limb.cc:saveLimbInfoAndDatabase", "src/rbprm-limb.cc:RbPrmLimb"]}
{"id": "C125", "title": "Sampling of the path for contact planning", "statement": "Interpolating along a path with a positive time step looks at the start state's configuration and then at the path every step, up to and including its end; each of these configurations takes the root and extra entries from the path and the entries the path does not describe from the start state.", "quantifier": "every path, time range, positive step and sizes of configurations", "why_tests_cant": "the number of samples is unbounded and times are real numbers", "anchors": ["src/interpolation/rbprm-path-interpolation.cc:Interpolate", "src/interpolation/rbprm-path-interpolation.cc:configPosition"]}
{"id": "C126", "title": "The contact planning loop ends", "statement": "The loop over the configurations ends after at most 21 iterations per configuration whenever the contact generator only fails, or breaks several contacts, after having repositioned contacts, which holds of the library's generator for limbs in groups of their own; configurations of the robot's size make the states defined.", "quantifier": "every history of answers of the contact generator, list of configurations, step and start state", "why_tests_cant": "depends on the whole history of successes, failures and repositionings", "anchors": ["src/interpolation/rbprm-path-interpolation.cc:Interpolate", "src/contact_generation/algorithm.cc:ComputeContacts"]}
{"id": "C127", "title": "The states follow each other", "statement": "The list of states begins with the start state at the initial time, times never decrease, and each further state is the generator's answer from the state before it, at one of the configurations of the list, with the direction (0,0,1) and the acceleration stored in that configuration; a state is only there if the report says that contacts changed, or failed; repositioned states have the time of the state before. The list is cut short (before the last configuration) only after two calls that failed or broke several contacts, or 21 that repositioned contacts.", "quantifier": "every history of answers of a reliable generator, list of configurations and non-negative step", "why_tests_cant": "invariant over all iterations of a loop that goes back and forth", "anchors": ["src/interpolation/rbprm-path-interpolation.cc:Interpolate"]}
{"id": "C128", "title": "Reaching the goal state", "statement": "After the loop the limbs whose contacts differ from those of the goal are moved to the goal's contacts one at a time, each intermediate state changing one limb only, holding the other contacts within 0.1 mm and being free of collision, and getting one limb closer to the goal; the goal itself is added when exactly one limb is left, otherwise none of the limbs left could be moved. The postural setting of the robot is put back, unless an exception passes (which happens when the goal lacks the contact of the limb considered first).", "quantifier": "every robot, sound solver, goal, list of states", "why_tests_cant": "every combination of differing limbs and solver answers", "anchors": ["src/interpolation/rbprm-path-interpolation.cc:addGoalConfig", "src/interpolation/rbprm-path-interpolation.cc:addGoalConfigRec", "src/interpolation/rbprm-path-interpolation.cc:replaceLimbContactForState"]}
{"id": "C129", "title": "Which states the filters remove", "statement": "Filtering repositionings removes a state between two others exactly when the same limbs make contact on both sides, going straight loses the same contacts, and the last state is reachable from the first; filtering break-create removes a state that only loses contacts which the next one makes again, under the same reachability; the obsolete filter removes states with the configuration, or the contacts, of the state before. First and last state always stay, order is kept, and a state after a removed one is kept.", "quantifier": "every list of states and reachability answers", "why_tests_cant": "lists of any length and all combinations of contacts and positions", "anchors": ["src/interpolation/rbprm-path-interpolation.cc:FilterRepositioning", "src/interpolation/rbprm-path-interpolation.cc:FilterBreakCreate", "src/interpolation/rbprm-path-interpolation.cc:FilterObsolete"]}
{"id": "C130", "title": "Merging two moves of a limb", "statement": "When a limb moves, another contact changes and the limb moves again, the two states in the middle are replaced only by a state in which the limb has moved at once (less than 20 cm) or not yet (less than 10 cm), with the root where it was, the contacts held within 0.1 mm, without collision, and reachable as required; everything else in the list is kept.", "quantifier": "every list of states, robot, sound solver and reachability answers", "why_tests_cant": "lists of any length and all solver answers", "anchors": ["src/interpolation/rbprm-path-interpolation.cc:tryReplaceStates", "src/interpolation/rbprm-path-interpolation.cc:trySkipStates"]}
{"id": "C131", "title": "Filtering ends with nothing left to filter", "statement": "Deep filtering always ends, keeps the first and the last state, never lengthens the list, and filtering its result again changes nothing: no three consecutive states are a repositioning or a break-create pair that could be shortened, and no state between the first and last is obsolete.", "quantifier": "every list of states, solver and reachability answers", "why_tests_cant": "a fixpoint loop over lists of any length", "anchors": ["src/interpolation/rbprm-path-interpolation.cc:FilterStates", "src/interpolation/rbprm-path-interpolation.cc:FilterStatesRec"]}
{"id": "C132", "title": "Filters keep one contact change at a time", "statement": "If between consecutive states at most one contact is made and at most one is lost, this still holds after filtering repositionings; it holds after the other filters if contacts of a limb are either at the same place or more than 1 cm apart (and equal configurations mean equal contacts). Putting one state in place of two keeps it too, except that the contact that is redone may end more than 1 cm from its place; it does not when the limb's offset is left alone by the rotation of the contact.", "quantifier": "every list of states", "why_tests_cant": "every list and all positions", "anchors": ["src/interpolation/rbprm-path-interpolation.cc:FilterRepositioning", "src/interpolation/rbprm-path-interpolation.cc:FilterBreakCreate", "src/interpolation/rbprm-path-interpolation.cc:FilterObsolete"]}
{"id": "C133", "title": "Contact planning along configurations", "statement": "The whole interpolation ends and its result begins with the start state at the initial time; when the generator never fails nor repositions, every configuration is considered exactly once, in order, from the last state kept and the joints last computed, a state is kept exactly when contacts changed, and the last state is the goal if the last state kept differs from it by one contact. With a path, the configurations are those of the path at every multiple of the step and at its end; without a path the call throws.", "quantifier": "every generator, list of configurations, goal, filter setting", "why_tests_cant": "runs of any length", "anchors": ["src/interpolation/rbprm-path-interpolation.cc:Interpolate"]}
{"id": "C134", "title": "The path between contact states", "statement": "Interpolating a list of states returns the paths of the pairs of consecutive states, in order, each one the planner's answer after the requested numbers of random and partial shortcuts, all from the first attempt at which every pair was solved; without the time it goes from the configuration of the first state to that of the last one without jump; with the time each part goes from time 0 to time 1, so that the time jumps back at every intermediate state.", "quantifier": "every list of states, history of planner and optimizer answers, schedule of the threads", "why_tests_cant": "retry loop of unbounded length over all pairs", "anchors": ["include/hpp/rbprm/interpolation/time-constraint-helper.inl:interpolateStatesFromPathGetter", "include/hpp/rbprm/interpolation/time-constraint-helper.inl:ConcatenateAndResizePath", "include/hpp/rbprm/interpolation/time-constraint-helper.inl:Run", "include/hpp/rbprm/interpolation/time-constraint-helper.inl:optimize"]}
{"id": "C135", "title": "When the interpolation between states ends", "statement": "The interpolation returns a path exactly when at some attempt all pairs are solved and nothing but failures of the planner happened before; every attempt plans all pairs again, and a pair that the planner never solves makes the call run for ever (runtime errors, such as that of a limb with less than two samples, and projection errors included). Any other exception leaves the body of the parallel loop and terminates the process; fewer than two states or more than a hundred are undefined behaviour.", "quantifier": "every list of states and history of answers", "why_tests_cant": "non-termination and unbounded retries cannot be observed by a test", "anchors": ["include/hpp/rbprm/interpolation/time-constraint-helper.inl:interpolateStatesFromPathGetter", "include/hpp/rbprm/interpolation/time-constraint-helper.inl:checkPath", "include/hpp/rbprm/interpolation/time-constraint-helper.inl:Run"]}
{"id": "C136", "title": "The parallel loop is independent of the schedule", "statement": "Whatever the order in which the threads treat the pairs of states, at each attempt, the interpolation gives the same path, or fails or keeps running in the same way.", "quantifier": "every order of the iterations at every attempt", "why_tests_cant": "a test observes one schedule", "anchors": ["include/hpp/rbprm/interpolation/time-constraint-helper.inl:interpolateStatesFromPathGetter"]}
{"id": "C137", "title": "Random configurations of the interpolation", "statement": "A configuration shot for the interpolation has a random time, follows the guide path at the same fraction of its range for all entries outside of the free limbs, takes each free limb's joints from one of its samples, any but the last one (never drawn), and leaves the time dependent constraints with their values at this time; it throws exactly when some free limb has fewer than two samples.", "quantifier": "every guide path, sample databases, random numbers", "why_tests_cant": "all random draws and databases", "anchors": ["src/interpolation/time-constraint-shooter.cc:impl_shoot"]}
{"id": "C138", "title": "Projection on a centre of mass", "statement": "Projecting a state on a centre of mass returns a configuration of the robot's size with the extra degrees of freedom of the state, also when it fails; when it succeeds, every contact of the state is held and the centre of mass is at the requested place, both within 1e-3; it throws when a contact of the state is not one of a known limb.", "quantifier": "every robot, state, target and sound solver", "why_tests_cant": "all targets and solver answers", "anchors": ["src/interpolation/com-rrt.cc:projectOnCom"]}
{"id": "C139", "title": "comRRT does not follow the centre of mass", "statement": "The path of the centre of mass given to comRRT has no influence on the result: any other one that can be extracted over its range gives the same path. The only constraints are the contacts common to both states, within 5 cm, and the random configurations follow the limbRRT path when some limb has no such contact, else a path planned without constraints.", "quantifier": "every pair of states, planner, paths of the centre of mass", "why_tests_cant": "compares runs on all paths of the centre of mass", "anchors": ["src/interpolation/com-rrt.cc:comRRT", "src/interpolation/com-rrt.cc:SetComRRTConstraints", "src/interpolation/com-rrt-shooter.cc:GetFreeLimbs"]}
{"id": "C140", "title": "Contacts along the path between states", "statement": "Between two states the planner is asked for a path from the first configuration at time 0 to the second at time 1 under the constraints of the contacts common to both states; with a planner that respects its constraints, every configuration of the returned path between these states holds these contacts within the threshold. The problem is defined exactly when the common contacts are those of known limbs.", "quantifier": "every list of states, robot, sound planner and configuration of the path", "why_tests_cant": "all configurations of all paths", "anchors": ["include/hpp/rbprm/interpolation/time-constraint-helper.inl:Run", "include/hpp/rbprm/interpolation/interpolation-constraints.hh:CreateContactConstraints", "src/interpolation/limb-rrt.cc:limbRRT"]}
{"id": "C141", "title": "Which effector moves between two states", "statement": "The effector that moves from a state to another is that of the first limb, in alphabetical order, whose contact in the second state is absent from the first one or has moved by more than 1 cm; only this one moves even if several contacts change. When no contact is created the call is undefined behaviour (front of an empty vector); when the robot does not know the limb or its effector's frame an exception is thrown. The normal of a limb without contact is the vertical, and the answer says so.", "quantifier": "every pair of states and robot", "why_tests_cant": "all pairs of contact tables", "anchors": ["src/interpolation/interpolation-constraints.cc:getEffectorLimb", "src/interpolation/interpolation-constraints.cc:getEffector", "src/interpolation/effector-rrt.cc:getNormal"]}
{"id": "C142", "title": "The effector along a whole body path", "statement": "The position of the effector given to the fit at a fraction of the duration is that of its frame at the first multiple of 0.01 at which the last coordinate of the path reaches this fraction of its final value, else at the end of the path; it is translated by an uninitialised vector and the given offset.", "quantifier": "every path, robot, fraction and offset", "why_tests_cant": "unbounded search along arbitrary paths", "anchors": ["src/interpolation/effector-rrt.cc:EndEffectorPath::operator()", "src/interpolation/effector-rrt.cc:GetEffectorPositionAt"]}
{"id": "C143", "title": "Height of the effector's take off and landing", "statement": "The height of take off and landing is p_max / (1 + 4x + 6x^2 - x^3) where the duration is 0.6 (1 + x): positive and at most the maximum asked for durations from 0.6 s to 4.2 s, at most three times this maximum for shorter ones; for a duration of at least 4.8 s it is negative, so that the effector is asked to go through the surface it leaves.", "quantifier": "every maximum and duration", "why_tests_cant": "all real durations", "anchors": ["src/interpolation/effector-rrt.cc:computePredefConstants"]}
{"id": "C144", "title": "Generated trajectory of an effector", "statement": "The generated trajectory is made of a take off of 0.3 s along the normal of the contact left, a fitted middle part and a landing of 0.3 s along the normal of the contact reached; it goes from the pose of the effector in the first state to its pose in the second one, at rest at both ends, position, velocity, acceleration and jerk being continuous; it is appended to the problem's paths and stored for the effector under the number of this path unless a trajectory is stored there. When the fit fails a null pointer is returned and nothing changes. If the third argument of the constructor of curves is the first time of the curve, as in ndcurves, the call always throws.", "quantifier": "every pair of states, robot, path of the centre of mass longer than 0.7 s, curves library as specified", "why_tests_cant": "all states and durations; continuity at every junction", "anchors": ["src/interpolation/effector-rrt.cc:generateEndEffectorBezier", "src/interpolation/effector-rrt.cc:buildPredefinedPath", "src/interpolation/effector-rrt.cc:computeBezierPath", "src/rbprm-fullbody.cc:addEffectorTrajectory"]}
{"id": "C145", "title": "Candidate trajectories fitted to a path", "statement": "Nineteen candidates are made, for 1, 3 and 5 free variables and the weights 0 (1 variable only), 0.5, 0.75, 0.85, 0.9, 0.95 and 1, in this order, all with the same take off and landing; a candidate whose fit fails is the whole body path itself. An exception is thrown when the moving limb has no contact in the first state.", "quantifier": "every pair of states, robot, path and fits", "why_tests_cant": "all outcomes of the nineteen fits", "anchors": ["src/interpolation/effector-rrt.cc:fitBeziersToPath"]}
{"id": "C146", "title": "Following the effector's trajectory", "statement": "A path returned by effectorRRT for a moving effector was found by the planner under the constraints of the common contacts, of the centre of mass, of the effector along its trajectory and, with a reference path, of the orientations of the constrained joints, within 1e-3, with random configurations along the guide path; its trajectory is always the first candidate (one variable, planner's path not weighted): the eighteen other ones are never used, and when this first fit fails no path is returned. The list of locked joints has no effect beyond the check of the names. The trajectory is stored for the effector under the number following that of its path.", "quantifier": "every pair of states, robot, fits, planner history and schedule", "why_tests_cant": "all histories of the planner and fits", "anchors": ["src/interpolation/effector-rrt.cc:effectorRRTFromPath", "src/interpolation/effector-rrt.cc:SetEffectorRRTConstraints::operator()", "src/interpolation/effector-rrt.cc:getJointsByName"]}
{"id": "C147", "title": "effectorRRT", "statement": "The path of comRRT is appended to the problem's paths; it is the result when no common contact moves by 3 cm or more, else it guides the search along the effector's trajectory. Without a reference path the lists of constrained and locked joints have no influence on the result: this is always the case of the overload without reference path.", "quantifier": "every pair of states, robot, planner history, lists of joints", "why_tests_cant": "compares runs on all lists of joints", "anchors": ["src/interpolation/effector-rrt.cc:effectorRRT", "src/interpolation/effector-rrt.cc:effectorRRTFromPath"]}
{"id": "C148", "title": "Durations measured by the profiler", "statement": "After any history of starts and stops of a name, mixed with any calls for other names, total, last, average, maximum and minimum returned for this name are the sum, the last, the mean, the greatest and the least (for positive durations) of the durations measured: those from each stop back to the last start (a second stop without a start measures again from the same start). They are never negative when the clock does not go back, and the time so far is counted from the last start.", "quantifier": "every history of calls, clock and mode", "why_tests_cant": "unbounded interleavings of calls for several names", "anchors": ["src/utils/stop-watch.cc:Stopwatch::start", "src/utils/stop-watch.cc:Stopwatch::stop", "src/utils/stop-watch.cc:Stopwatch::get_total_time", "src/utils/stop-watch.cc:Stopwatch::get_time_so_far"]}
{"id": "C149", "title": "The minimum forgets after a zero", "statement": "A measured duration of zero erases the minimum: the value returned afterwards is the least of the durations measured after the last zero (zero is taken for 'not set').", "quantifier": "every history of calls", "why_tests_cant": "depends on the whole history", "anchors": ["src/utils/stop-watch.cc:Stopwatch::stop", "src/utils/stop-watch.cc:Stopwatch::get_min_time"]}
{"id": "C150", "title": "Exceptions of the profiler", "statement": "A call throws exactly when the profiler is on and either it needs the time and no clock mode is set, or it is a stop, pause or reset of a name that was never started; it then changes nothing, except that a start without a clock mode creates the name.", "quantifier": "every state and call", "why_tests_cant": "all states and calls", "anchors": ["src/utils/stop-watch.cc:Stopwatch::take_time", "src/utils/stop-watch.cc:Stopwatch::start", "src/utils/stop-watch.cc:Stopwatch::stop", "src/utils/stop-watch.cc:Stopwatch::pause", "src/utils/stop-watch.cc:Stopwatch::reset"]}
{"id": "C151", "title": "Pausing a measurement", "statement": "A pause adds to the total and to the last duration the processor clock in ticks minus the start in the unit of the mode (seconds of real time, or ticks that are then taken for seconds), so that the documented start-pause-start-stop sequence does not measure the time spent; the pause counts in no average, minimum or maximum.", "quantifier": "every state, clock and mode", "why_tests_cant": "unit error invisible without an exact model of both clocks", "anchors": ["src/utils/stop-watch.cc:Stopwatch::pause"]}
{"id": "C152", "title": "Resets, switching off, independence of names", "statement": "A reset puts a name back to its initial record, reset_all all of them and only them; a stop that follows a reset without a start measures from the origin of times. While the profiler is off no call but turn_on and set_mode changes anything and none throws. A call for a name never changes another one.", "quantifier": "every history and state", "why_tests_cant": "all histories", "anchors": ["src/utils/stop-watch.cc:Stopwatch::reset", "src/utils/stop-watch.cc:Stopwatch::reset_all", "src/utils/stop-watch.cc:Stopwatch::turn_off"]}
{"id": "C153", "title": "Reports and counts of events", "statement": "report_all prints one line per name, in alphabetical order, with minimum, average, maximum and total in milliseconds and the number of stops (the average of a name never stopped is not finite); nothing when the profiler is off. The count of an event is the sum of the occurrences declared, and the report lists the counted events once each in alphabetical order.", "quantifier": "every state and history of declarations", "why_tests_cant": "all histories", "anchors": ["src/utils/stop-watch.cc:Stopwatch::report", "src/utils/stop-watch.cc:Stopwatch::report_all", "include/hpp/rbprm/rbprm-profiler.hh:add_to_count", "include/hpp/rbprm/rbprm-profiler.hh:report_count"]}
{"id": "C154", "title": "Steering under time-dependent constraints", "statement": "The steering method of the interpolation gives a path exactly when both configurations satisfy the constraints at their own time, with the right hand sides that do not depend on time taken from the first one; the path goes from the first to the second over their distance, each configuration in between is interpolated, then projected with the references at its time. Neither other calls nor the use of other paths of the method change a path or the answer of a later call; a copy gives the same paths. Along a path that the validation of the interpolation accepts the time never decreases.", "quantifier": "every pair of configurations, constraint set, list of time-dependent equations and history of calls", "why_tests_cant": "shared right hand sides: all histories of calls and evaluations", "anchors": ["include/hpp/rbprm/interpolation/time-constraint-steering.hh:TimeConstraintSteering::impl_compute", "include/hpp/rbprm/interpolation/time-constraint-utils.hh:SetPathValidation"]}
{"id": "C155", "title": "Friction cone of a jump", "statement": "For a contact normal of length 1 and a heading, the half angle answered by the friction test is exactly that of the launch directions of the vertical plane of this heading which do not slip (Coulomb): a direction holds iff its angle to the projection of the normal on the plane is at most the answer; the answer is at most atan(mu). The test is negative exactly when the tangent of every such angle is below sqrt(0.05)*|cos heading| (sqrt(0.05) when the heading is +-pi/2). No assertion fails. When the cone touches both the vertical and the plane only one direction holds, and the answer is pi/4, or negative when the heading is +-pi/2. Not claimed for the normals whose cone passes within 1e-6 of the vertical without touching it.", "quantifier": "every friction coefficient, unit normal and heading in [-pi,pi]", "why_tests_cant": "all reals", "anchors": ["src/planner/steering-method-parabola.cc:SteeringMethodParabola::fiveth_constraint"]}
{"id": "C156", "title": "Text of a state", "statement": "The text of a state gives its number of contacts, the names in alphabetical order, one line per contact in this order (the name without its first character, the position, the rotation row by row) and the configuration; two states with the same text have the same contacts and the same printed numbers. The text relative to a previous state lists instead the contacts that are new or have moved by more than 1 cm; it determines the contacts up to the first character of their names only. A count higher than the number of normals reads past the end of the map; a contact with an empty name makes both calls throw.", "quantifier": "every state whose tables agree, every previous state and every way of writing numbers without blanks", "why_tests_cant": "all states and names", "anchors": ["src/rbprm-state.cc:State::print", "src/rbprm-state.cc:State::printInternal"]}
{"id": "C157", "title": "Shot configurations satisfy the reachability condition", "statement": "For a shooter built from a robot, geometries, affordances, a filter and affordance filters, after BoundSO3 and any use of its validator: shoot ends within shootLimit*(2*displacementLimit+1) validations; a configuration reported found leaves the trunk free of itself and of every geometry, respects the joint bounds and makes every ROM of the filter touch an object of an affordance it may use; its root respects the root's bounds and the limits of BoundSO3. What is shot does not depend on how the validator was used before. With a filter that names a ROM twice, an unknown ROM or one without objects nothing is ever found. The constructor keeps the triangles of exactly the surfaces asked for, and is undefined if one of them is not a mesh; a trunk in collision is moved along the unit normal of the triangle touched.", "quantifier": "every robot, environment, filter, random sequence, limits and history of the validator", "why_tests_cant": "all environments, random draws and earlier validations", "anchors": ["src/rbprm-shooter.cc:RbPrmShooter::RbPrmShooter", "src/rbprm-shooter.cc:RbPrmShooter::impl_shoot", "src/rbprm-shooter.cc:normalFromTriangleContact", "src/rbprm-shooter.cc:getTranslationBounds", "src/rbprm-validation.cc:RbPrmValidation::validate"]}
{"id": "C158", "title": "Way points of the end effector", "statement": "The way points of an effector along a path are its positions at steps of 1/31 of the path's duration (the last step twice as long), numbered from 0 to 30. When the effector moves by more than 3 cm and all of them lie in the direction of the last, they are replaced by the two ends and the middle of the segment moved by h along every axis; otherwise, if all heights are within 2 cm of the first, they are raised by a ramp that is h in the middle and 0 at both ends; h is 3 cm for motions under 10 cm and 7 cm otherwise. A path that ends where it starts is refused by an exception. The spline through the way points starts and ends where the path does.", "quantifier": "every path, time range, pair of states and interpolating curve", "why_tests_cant": "all paths and distances, with thresholds on directions and heights", "anchors": ["src/interpolation/effector-rrt.cc: getWayPoints, IsLine, Is2d, splineFromEffectorTraj"]}
{"id": "C159", "title": "Recorded contacts hold in the configuration of every generated state", "statement": "If, in the previous state, every effector in contact is where its contact is recorded, then so it is in the state returned by the contact generator, whatever happened in between (contacts kept, one broken, one created, contacts repositioned after a failure); so it is also for the first state of a path. With the robot's projections and a sound solver, every effector of every state of an interpolated sequence - the states of the generator, those added on the way to the goal, and those the filters put in place of others - is within 0.1 mm of its recorded contact, and within 0.0001 rad for surface contacts, if this holds for the start and goal states. This assumes that no effector is on another limb and that contact creation does not use the postural task.", "quantifier": "every robot, environment, list of candidate contacts, state, configuration, path and filter setting", "why_tests_cant": "composition over all executions of the generator, the goal moves and the filters", "anchors": ["src/contact_generation/contact_generation.cc: oneStep, repositionContacts, maintain_contacts, gen_contacts, generate_contact", "src/contact_generation/algorithm.cc: ComputeContacts", "src/interpolation/rbprm-path-interpolation.cc: Interpolate, addGoalConfig, FilterStates", "src/projection/projection.cc: projectSampleToObstacle, projectToRootConfiguration"]}
{"id": "C160", "title": "The dynamic planner stays within the constraints", "statement": "When the first configuration and the goals satisfy the constraints of the steering method, every node of the roadmap and every path of its edges satisfy them after the direct connections and any number of steps, whatever configurations are drawn: each target is projected on the constraints before it is steered to (for the nodes of jumps, whose velocities are overwritten, this assumes that the constraints do not depend on the velocity).", "quantifier": "every roadmap, constraints, number of steps, goals and sequence of answers of the services", "why_tests_cant": "any number of draws of configurations that do not satisfy the constraints", "anchors": ["src/planner/dynamic-planner.cc:extendInternal", "src/planner/dynamic-planner.cc:extendParabola", "src/planner/dynamic-planner.cc:oneStep", "src/planner/dynamic-planner.cc:tryParabolaPath", "src/planner/dynamic-planner.cc:tryConnectInitAndGoals"]}
{"id": "C161", "title": "Stepping through time with doubles", "statement": "With additions rounded to nearest (any rule for ties), doubles as bounds and step, and bounds of absolute value at most 2^52 steps: sampling a path for contact planning and validating a path forwards or backwards end after at most 2 (length / step) + 2 instants; consecutive instants are at most a step and a half apart, the last one and the end of the path included; each instant is within k roundings of the exact k-th multiple; the configurations kept, the verdict, the valid part and the reported time are those of these instants followed by the end of the path, so that every time of an accepted path is within three quarters of a step of a configuration found valid. A positive step below 2^-54 times the start never advances, and neither loop ends.", "quantifier": "every rounding to nearest, bounds, step, path and validity predicate", "why_tests_cant": "rounding errors accumulate along loops of any length", "anchors": ["src/interpolation/rbprm-path-interpolation.cc:Interpolate", "src/rbprm-path-validation.cc:validate", "src/dynamic/dynamic-path-validation.cc:validate"]}
{"id": "C162", "title": "Weights of the shooter with doubles", "statement": "With additions and divisions rounded to nearest, for fewer than 2^49 triangles whose areas are doubles not all zero, the cumulated weights never decrease and each is within 8 n 2^-53 of the exact share of the area, n being the number of triangles; every random number of [0,1] chooses a triangle, one that a number at most 8 n 2^-53 away chooses in exact arithmetic, and no triangle without area but the first or the last one is ever chosen.", "quantifier": "every rounding to nearest, list of areas and random number", "why_tests_cant": "rounding errors accumulate with the number of triangles", "anchors": ["src/rbprm-shooter.cc:InitWeightedTriangles", "src/rbprm-shooter.cc:WeightedTriangle"]}
{"id": "C163", "title": "Looking for a time along a path with doubles", "statement": "With the step 0.01 and the additions rounded to nearest, the search for the index at which a whole body path reaches a time ends for every path whose length is a double of at most 2^52 steps; it answers the first of the instants visited, at most a step and a half apart, at which the time is reached, else the end of the path. If the time never decreases along the path, the answer is less than a step and a half after the first index at which it is reached.", "quantifier": "every rounding to nearest, length, time and time coordinate of a path", "why_tests_cant": "rounding errors accumulate along loops of any length", "anchors": ["src/interpolation/effector-rrt.cc:EndEffectorPath"]}
{"id": "C164", "title": "Collision tests between two contact states", "statement": "Before planning between two states, if some limb has no contact held by both within 1 cm, the obstacles stay tested exactly with the joints of these limbs, without those at or below the effector when the limb is allowed to touch; other joints, the trunk included, are not tested any more. If no limb moves everything stays tested. If the root had no pair with one of the obstacles, every joint but the effectors stays tested. It throws exactly when the effector of a moving limb that may touch does not have the name of a joint.", "quantifier": "every tree of joints with distinct names, limbs, obstacles, states and set of pairs", "why_tests_cant": "all trees and sets of limbs", "anchors": ["include/hpp/rbprm/interpolation/time-constraint-helper.inl:DisableUnNecessaryCollisions", "include/hpp/rbprm/interpolation/time-constraint-helper.inl:Run", "include/hpp/rbprm/tools.hh:RemoveNonLimbCollisionRec"]}
{"id": "C165", "title": "Random parabolic jump", "statement": "The jump drawn towards a configuration has a speed in [0, V0max] and an angle between the lower bound (raised to 0) and the middle of the two bounds of the steering method. It goes from the start to where a free fall of three seconds leads (moved perpendicularly to the heading onto the line through the origin), its coefficients give at each abscissa the height of that free fall, and it is returned exactly when the validation accepts it and its highest point is not both above the ceiling and no farther than the target. Its recorded velocities are not set.", "quantifier": "every pair of configurations, bounds, gravity, ceiling, validation, and every outcome of the random draws with an angle below the vertical and a non-zero speed", "why_tests_cant": "all reals, all draws", "anchors": ["src/planner/steering-method-parabola.cc:compute_random_3D_path", "src/planner/steering-method-parabola.cc:computeCoefficients", "src/planner/parabola-path.cc:ParabolaPath", "include/hpp/rbprm/planner/steering-method-parabola.hh:alpha_1_minus_"]}
{"id": "C166", "title": "Reference configuration and reference positions of the limbs", "statement": "After any sequence of limb creations and reference configurations, referenceConfig() is the last one given (the neutral one if none). The reference position of a limb is that of its effector in the root's frame at the last reference configuration given since the limb was created, the neutral one if none was: what was given before does not count, and limbs without contact always keep the neutral one. Offset and normal of a limb are turned with the effector's rotation at the configuration for which the placements were last computed when it was created; so a limb created after referenceConfig(q) has the reference position of the neutral configuration with the offset and normal of q. Giving q leaves the robot at q, creating a limb leaves it at the neutral configuration. Creating a limb whose name is taken by a limb of the same kind throws and changes nothing.", "quantifier": "every history of creations (failed or not), reference configurations and other uses of the robot, every kinematics", "why_tests_cant": "all histories", "anchors": ["src/rbprm-fullbody.cc:referenceConfig", "src/rbprm-fullbody.cc:AddLimb", "src/rbprm-limb.cc:computeEffectorReferencePosition", "src/rbprm-limb.cc:GetEffectorTransform"]}
{"id": "C167", "title": "Centroid of a polygon", "statement": "For a closed polygon (first point repeated at the end) centroid(begin, end, area) writes the signed area (sum of the signed areas of a fan of triangles, positive counterclockwise) and returns the mean of the triangles' centres weighted by these areas, at height 0 whatever the heights of the points; without area the coordinates are not numbers. For a clockwise convex polygon the area written is negative and the centroid is inside, seen from above. Reading the polygon in the other direction gives the same centroid and the opposite area.", "quantifier": "every list of points", "why_tests_cant": "all polygons of any size", "anchors": ["src/utils/algorithms.cc:centroid"]}
{"id": "C168", "title": "Contact surface and approximate contact point", "statement": "For a range of motion and an obstacle in collision, the surface computed at a node of the planner consists of points of the convex hull of the range of motion, within 2e-5 of the plane of the obstacle's first triangle and, seen from above, inside the obstacle's hull; it is found exactly when the section of the range of motion by that plane and the obstacle overlap seen from above, and it is the whole section when the section is inside the obstacle. The normal is the unit normal of the first triangle. Without a reference position for the effector the approximate contact point is the mean of the surface's vertices; with one it is the point of the plane nearest to the reference carried by the root's placement if that is over the surface, otherwise a nearest crossing of the line towards the mean with the lines of the edges. Among several obstacles the one whose contact point is nearest to the reference is kept. A range of motion that touches the plane in a single point gives the projection of the reference on the plane, however far, and the surface found on a wall can go beyond its top.", "quantifier": "every pair of meshes at every placement, every configuration of the root and every reference position", "why_tests_cant": "meshes of any size, positions among real numbers", "anchors": ["src/planner/rbprm-node.cc:computeIntersectionSurface", "src/planner/rbprm-node.cc:approximateContactPoint", "src/planner/rbprm-node.cc:centerOfRomIntersection", "src/planner/rbprm-node.cc:RbprmNode::chooseBestContactSurface", "src/utils/algorithms.cc:GetModel", "src/utils/algorithms.cc:convertBVH"]}
{"id": "C169", "title": "One step of the generator, exactly", "statement": "A call of the generator after the first either succeeds or repositions the robot, never both. It tries, in order, to keep all contacts, then all but one, the oldest dropped first (all of them when there is one contact only); a set of contacts is kept if the projection of the root succeeds, the other limbs can be freed of collisions and the configuration is valid (and reachable, in the quasi-static case). The first set kept is completed by a contact of the first free limb that has a candidate passing the tests of robustness and reachability, the first such candidate, and then reported as REACHABLE_CONTACT; without any, it is kept as it is if it has two contacts and is robust enough (STABLE_CONTACT); otherwise the next set is tried. The robot is repositioned exactly when all sets fail. Attempts are not independent: after a failed attempt the next set is compared with the state of that attempt, so a step can fail although a set of contacts would have been accepted from the state asked for.", "quantifier": "every previous state, configuration, threshold and answers of the projections, the samples, the collision tests and the reachability tests", "why_tests_cant": "unbounded numbers of limbs, contacts and candidates, and every answer of the other libraries", "anchors": ["src/contact_generation/algorithm.cc:oneStep", "src/contact_generation/algorithm.cc:genContactFromOneMaintainCombinatorial", "src/contact_generation/contact_generation.cc:maintain_contacts", "src/contact_generation/contact_generation.cc:gen_contacts", "src/contact_generation/contact_generation.cc:generate_contact"]}
{"id": "C170", "title": "The root of the robot during a step", "statement": "After a call of the generator the root of the robot, and every joint above the limbs, has exactly the values of the configuration asked for, whichever contacts are broken and created; when the robot has to be repositioned it has exactly those of the previous state.", "quantifier": "every previous state whose contacts are limbs, every configuration, candidates and answers of the projections", "why_tests_cant": "every robot, history of contacts and number of attempts", "anchors": ["src/contact_generation/algorithm.cc:ComputeContacts", "src/contact_generation/contact_generation.cc:maintain_contacts", "src/contact_generation/contact_generation.cc:repositionContacts", "src/projection/projection.cc:projectToRootConfiguration", "src/projection/projection.cc:projectSampleToObstacle"]}
{"id": "C171", "title": "The root of the robot follows the guide", "statement": "Every state of a sequence generated along a path, but those added at the end to reach the goal's contacts one by one, has the root of the robot exactly where the path has it at the state's time, or (always) one step later; for a list of configurations, where one of them has it. The states the filters replace keep the root and the time of a state they replace, and repositioning a contact keeps the root and the time of the state before.", "quantifier": "every path, step, generator which keeps the root as the library's does, and filters; every number of repositionings and of states", "why_tests_cant": "lengths of the path, failures and repositionings in any order", "anchors": ["src/interpolation/rbprm-path-interpolation.cc:Interpolate", "src/interpolation/rbprm-path-interpolation.cc:loadPreviousConfiguration", "src/interpolation/rbprm-path-interpolation.cc:FilterStates", "src/interpolation/rbprm-path-interpolation.cc:addGoalConfig", "src/contact_generation/algorithm.cc:ComputeContacts"]}
{"id": "C172", "title": "Generated configurations stay collision free", "statement": "Every configuration the generator returns is accepted by the collision validation of the whole robot, whichever contacts were kept, broken or created and whichever limbs were freed of collisions with their samples; for this the previous configuration only matters if the contacts were repositioned in place. So all states of a sequence are valid if the start and the goal are: those of the generator, those added on the way to the goal and those made by the filters.", "quantifier": "every robot, history of contacts, candidates, samples, answers of the solver and of the validations", "why_tests_cant": "no bound on the number of limbs, attempts, samples and states; every answer of the solver and of the collision tests", "anchors": ["src/contact_generation/contact_generation.cc:maintain_contacts", "src/contact_generation/contact_generation.cc:generate_contact", "src/contact_generation/contact_generation.cc:repositionContacts", "src/projection/projection.cc:projectSampleToObstacle", "src/interpolation/rbprm-path-interpolation.cc:Interpolate"]}
{"id": "C173", "title": "Limb validations agree with that of the robot", "statement": "For limbs registered one after the other: if the robot is found free of collisions, a limb moves alone and is found free of collisions by its own validation, then the whole robot is found free of collisions too, provided the registration of the limb tests the obstacles tested by the first registration and its effector, when left out, is on a last joint. Otherwise it may not be: only the first limb's effector is left out of the validation of the robot, so a foot with toes registered second may touch the floor for its limb's validation and not for the robot's.", "quantifier": "every robot, list of registrations, obstacles and configurations", "why_tests_cant": "no bound on the number of joints, limbs and obstacles", "anchors": ["src/rbprm-fullbody.cc:AddLimbPrivate", "include/hpp/rbprm/tools.hh:addLimbCollisionRec"]}
{"id": "C174", "title": "The best state of a repositioning", "statement": "findBestRepositionState returns one of the candidates: the first with the greatest sum of the heuristic's scores of the given limbs, evaluated in the direction from the first candidate to the last. Candidates with a score that is not a number are never chosen unless all are so, and then the last is. It throws exactly for an unknown limb or a candidate without contact for a limb, and is undefined without candidates.", "quantifier": "every list of candidates and limbs, every heuristic", "why_tests_cant": "unbounded lists and arbitrary heuristics; no test calls this function", "anchors": ["src/interpolation/rbprm-path-interpolation.cc:findBestRepositionState"]}
