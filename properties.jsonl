{"id": "C01", "title": "Forward kinematics always yields a rigid motion", "statement": "Evaluating any product-of-exponentials whose terms were built through the public constructor and whose base-to-tool transform is a rigid motion returns true and a pose whose rotation part is a proper orthonormal matrix (R R^T = I, det R = 1), for any joint vector of matching size.", "quantifier": "every number of terms, every mix of rotations and translations, every axis (including zero or tiny ones), every origin, every joint vector", "why_tests_cant": "tests evaluate a handful of robots; rigidity must survive any length of product and any axis the constructor accepts", "anchors": ["libraries/ScrewTheoryLib/MatrixExponential.cpp: MatrixExponential::MatrixExponential, asFrame", "libraries/ScrewTheoryLib/ProductOfExponentials.cpp: PoeExpression::evaluate"]}
{"id": "C02", "title": "A screw term is a one-parameter group that fixes its own axis", "statement": "For every term, displacement 0 is the identity, the displacement for a+b is the composition of those for a and b, the displacement for -a is the inverse of that for a; a rotation term fixes every point of the line through its origin along its axis and depends only on that line (not on which point of it is the origin); a translation term moves every point by its magnitude along the normalised axis.", "quantifier": "every axis, origin, pair of magnitudes and point", "why_tests_cant": "group laws and invariance under choice of origin range over a continuum of values", "anchors": ["libraries/ScrewTheoryLib/MatrixExponential.cpp: asFrame"]}
{"id": "C03", "title": "Changing the base frame of a term is conjugation", "statement": "Referring a term to a new base frame through a rigid transform H yields a term whose displacement for any magnitude is H * old displacement * H^-1.", "quantifier": "every term, rigid transform and joint magnitude", "why_tests_cant": "an equality between rigid motions over all transforms and angles", "anchors": ["libraries/ScrewTheoryLib/MatrixExponential.cpp: changeBase, cloneWithBase"]}
{"id": "C04", "title": "Base and tool changes of a product of exponentials act by left and right composition", "statement": "After changeBaseFrame(H) forward kinematics returns H times the old result; after changeToolFrame(H) it returns the old result times H; after append(other, H) it returns (product of own terms) * H * FK(other) and the old tool transform is forgotten; size adds up.", "quantifier": "every pair of formulas, every rigid transform, every joint vector", "why_tests_cant": "needs induction over the number of terms", "anchors": ["libraries/ScrewTheoryLib/ProductOfExponentials.cpp: append, changeBaseFrame", "libraries/ScrewTheoryLib/ProductOfExponentials.hpp: append, changeToolFrame"]}
{"id": "C05", "title": "Reversing a product of exponentials inverts forward kinematics", "statement": "FK of the reversed formula on the reversed and negated joint vector is the inverse of FK of the original; reverseSelf and makeReverse agree; reversing twice gives back a formula with the same FK.", "quantifier": "every formula with rigid tool transform and every joint vector", "why_tests_cant": "induction over the number of terms; tests check one 6R robot", "anchors": ["libraries/ScrewTheoryLib/ProductOfExponentials.cpp: reverseSelf, makeReverse", "libraries/ScrewTheoryLib/ProductOfExponentials.hpp: doc of reverseSelf"]}
{"id": "C06", "title": "Conversion to a KDL chain preserves forward kinematics", "statement": "The chain returned by toChain has as many moving joints as the formula has terms and its KDL forward kinematics equals FK of the formula for every joint vector.", "quantifier": "every formula and joint vector", "why_tests_cant": "induction over the number of terms", "anchors": ["libraries/ScrewTheoryLib/ProductOfExponentials.cpp: toChain"]}
{"id": "C07", "title": "Conversion from a KDL chain preserves forward kinematics", "statement": "The formula returned by fromChain has one term per moving joint and its FK equals the chain's KDL forward kinematics for every joint vector, whatever joint types (RotX..TransAxis, fixed) the chain mixes, provided the joints use unit scale and zero offset; converting a formula to a chain and back preserves FK.", "quantifier": "every chain of segments with unit-scale zero-offset joints, every joint vector", "why_tests_cant": "induction over segments of arbitrary type mixes", "anchors": ["libraries/ScrewTheoryLib/ProductOfExponentials.cpp: fromChain, jointTypeToMotionId"]}
{"id": "C08", "title": "Conversion from a KDL chain honours reversed-sense joints", "statement": "For chains whose joints were configured as InvRotX/Y/Z or InvTransX/Y/Z (scale -1), FK of the formula returned by fromChain equals the chain's KDL forward kinematics.", "quantifier": "every chain the KDL solver can be configured with, every joint vector", "why_tests_cant": "the failing joint kinds are not part of any test robot", "anchors": ["libraries/ScrewTheoryLib/ProductOfExponentials.cpp: fromChain", "libraries/YarpPlugins/KdlSolver/DeviceDriverImpl.cpp: open (xyzLink types)"]}
{"id": "C09", "title": "Paden-Kahan 1 solves the one-axis rotation problem", "statement": "If some rotation about the axis takes the transformed point to the target, PadenKahanOne reports reachable and its angle, which lies in (-pi,pi], performs that rotation up to the 1e-6 rad snapping of the library's angle normalisation; conversely, if it reports reachable, the rotated point is within the library's tolerance of the target.", "quantifier": "every axis, origin, test point and pair of transforms", "why_tests_cant": "geometry over a continuum, including points on the axis", "anchors": ["libraries/ScrewTheoryLib/PadenKahanSubproblems.cpp: PadenKahanOne::solve", "libraries/ScrewTheoryLib/ScrewTheoryTools.hpp: normalizeAngle, vectorPow2"]}
{"id": "C10", "title": "Paden-Kahan 2 solves the two-crossing-axes problem", "statement": "For two crossing non-parallel rotation axes through r, if some pair of rotations takes the point to the target then both pairs of angles returned do so (up to the angle snapping), and every pair of angles doing so has its intermediate point among the two found; the reachable flag is then true.", "quantifier": "every pair of crossing non-parallel axes, every reachable target", "why_tests_cant": "two families of solutions over a continuum of geometries", "anchors": ["libraries/ScrewTheoryLib/PadenKahanSubproblems.cpp: PadenKahanTwo::solve"]}
{"id": "C11", "title": "Paden-Kahan 3 solves the rotation-to-distance problem", "statement": "If a rotation about the axis can bring the point to the requested distance from k, both angles returned by PadenKahanThree do so, and they are the only ones modulo 2 pi; the reachable flag is true exactly when such a rotation exists (up to tolerance).", "quantifier": "every axis, point, centre and distance with point and centre off the axis", "why_tests_cant": "continuum of geometries including the two tangency cases", "anchors": ["libraries/ScrewTheoryLib/PadenKahanSubproblems.cpp: PadenKahanThree::solve"]}
{"id": "C12", "title": "Pardos-Gotor 1 and 2 solve the pure translation problems", "statement": "If the displacement from the point to the target lies along the axis (PG1) or in the plane spanned by two non-parallel axes (PG2), the returned magnitudes translate the point exactly onto the target, and they are the only magnitudes that do.", "quantifier": "every axis or pair of non-parallel axes, every displacement in their span", "why_tests_cant": "continuum of geometries; sign cases of PG2", "anchors": ["libraries/ScrewTheoryLib/PardosGotorSubproblems.cpp: PardosGotorOne::solve, PardosGotorTwo::solve"]}
{"id": "C13", "title": "Pardos-Gotor 3 solves the translation-to-distance problem", "statement": "If a translation along the axis can bring the point to the requested distance from k, both magnitudes returned by PardosGotorThree do so and they are the only ones.", "quantifier": "every axis, point, centre and distance", "why_tests_cant": "continuum of geometries including the tangency case", "anchors": ["libraries/ScrewTheoryLib/PardosGotorSubproblems.cpp: PardosGotorThree::solve"]}
{"id": "C14", "title": "Pardos-Gotor 4 solves the two-parallel-axes problem", "statement": "For two distinct parallel rotation axes, if some pair of rotations takes the point to the target, both pairs of angles returned by PardosGotorFour do so, and whenever the reachable flag is true the target really is reachable.", "quantifier": "every pair of distinct parallel axes, every target", "why_tests_cant": "continuum of geometries including the tangency case and out-of-plane targets", "anchors": ["libraries/ScrewTheoryLib/PardosGotorSubproblems.cpp: PardosGotorFour::solve, computeNormal"]}
{"id": "C15", "title": "The closed-form IK solver returns one candidate per branch and every candidate satisfies every step", "statement": "ScrewTheoryIkProblem::solve returns exactly solutions() joint vectors (the product of the numbers of solutions of its steps), each of the size of the formula; the returned reachability flag is true only if every step was reachable on every branch; each candidate is obtained by feeding each step with the transforms determined by the candidate's own previously solved joints.", "quantifier": "every sequence of steps, every target pose, every behaviour of the subproblem solvers", "why_tests_cant": "branches multiply with each step; tests look at fixed robots", "anchors": ["libraries/ScrewTheoryLib/ScrewTheoryIkProblem.cpp: solve, computeSolutions, recalculateFrames, transformPoint"]}
{"id": "C16", "title": "IK solutions reproduce the requested pose", "statement": "For an arm of six rotary joints whose first two axes cross and whose last three axes cross, and for which the builder returns the usual four steps (elbow, shoulder, wrist, roll), every joint vector that the inverse kinematics returns with the reachable flag set makes the forward kinematics return the target pose up to the tolerance of the library. Conversely, the joint vector that produced a pose is among the candidates for that pose, away from singular poses. Every target gets an answer.", "quantifier": "every geometry of that class, every target, with or without reversal of the formula by the builder", "why_tests_cant": "continuum of geometries and poses", "anchors": ["libraries/ScrewTheoryLib/ScrewTheoryIkProblem.cpp: solve, recalculateFrames, transformPoint", "libraries/ScrewTheoryLib/PadenKahanSubproblems.cpp: solve", "libraries/ScrewTheoryLib/ScrewTheoryIkProblemBuilder.cpp: build"]}
{"id": "C17", "title": "The IK problem builder only returns complete problems", "statement": "If the builder returns a problem, its steps together assign every joint of the formula, no joint is assigned by two steps, and each step was accepted by the geometric test its subproblem needs; otherwise it returns null.", "quantifier": "every product of exponentials", "why_tests_cant": "search over all combinations of test points", "anchors": ["libraries/ScrewTheoryLib/ScrewTheoryIkProblemBuilder.cpp: build, searchSolutions, trySolve"]}
{"id": "C18", "title": "The joint configuration selected respects limits and is closest to the current one", "statement": "On its first use the selector returns true exactly when at least one candidate solution keeps every joint within its limits (tolerance 1e-6); the configuration retrieved is then such a candidate, no other valid candidate has a smaller sum of absolute joint displacements, and ties go to the lowest index.", "quantifier": "every set of candidates, limits and current joint positions", "why_tests_cant": "unbounded numbers of candidates and joints", "anchors": ["libraries/ScrewTheoryLib/ConfigurationSelector.cpp: configure, validate", "libraries/ScrewTheoryLib/ConfigurationSelectorLeastOverallAngularDisplacement.cpp: findOptimalConfiguration, getDiffs"]}
{"id": "C19", "title": "The selector keeps finding a configuration whenever one exists", "statement": "At every use, not only the first, the selector returns true if some candidate solution is within limits.", "quantifier": "every history of configure/findOptimalConfiguration calls", "why_tests_cant": "depends on the whole call history", "anchors": ["libraries/ScrewTheoryLib/ConfigurationSelectorLeastOverallAngularDisplacement.cpp: findOptimalConfiguration"]}
{"id": "C20", "title": "Once chosen, the configuration branch is kept", "statement": "After a successful choice every later successful call retrieves the candidate with the same branch index, and a call fails exactly when that branch is out of limits.", "quantifier": "every history of calls", "why_tests_cant": "depends on the whole call history", "anchors": ["libraries/ScrewTheoryLib/ConfigurationSelectorLeastOverallAngularDisplacement.cpp: findOptimalConfiguration"]}
{"id": "C21", "title": "Vector/frame conversions are mutually inverse", "statement": "frameToVector followed by vectorToFrame returns the same pose for every rigid pose outside the 1e-6 neighbourhoods of the log singularities (and at exactly identity); vectorToFrame followed by frameToVector returns the same vector when the rotation angle is in (0,pi) away from those neighbourhoods; twist and wrench conversions are exact inverses; any vector whose size is not six becomes the identity pose (resp. zero).", "quantifier": "every rigid pose, every vector of any size", "why_tests_cant": "continuum of rotations, all sizes", "anchors": ["libraries/KdlVectorConverterLib/KdlVectorConverter.cpp"]}
{"id": "C22", "title": "Pose encodings round-trip", "statement": "For every supported coordinate/orientation system and either angular unit, encodePose recovers the pose that decodePose wrote: decode into the chosen representation followed by encode gives a vector denoting the same pose.", "quantifier": "every pose (outside the representation's singularities), every supported pair of systems, degrees or radians", "why_tests_cant": "continuum of poses times the table of representations", "anchors": ["libraries/KinematicRepresentationLib/KinematicRepresentation.cpp: encodePose, decodePose"]}
{"id": "C23", "title": "Unsupported representations and short inputs are rejected", "statement": "The pose codecs return false for cylindrical and spherical coordinates, for eulerYZ without coordinates when encoding, and for polar-azimuth when the rotation vector has a z component; the velocity codecs also refuse the Euler and polar-azimuth systems; all of them refuse inputs shorter than the representation needs; the acceleration codecs always return false; all other combinations return true and produce a vector of the right size. A refusal touches nothing but the output vector.", "quantifier": "every enumerator combination and every input length", "why_tests_cant": "all enumerator combinations x all input lengths", "anchors": ["libraries/KinematicRepresentationLib/KinematicRepresentation.cpp: encodePose, decodePose, encodeVelocity, decodeVelocity, encodeAcceleration, decodeAcceleration"]}
{"id": "C24", "title": "Codecs support in-place use", "statement": "Calling a pose or velocity codec with the same vector as input and output gives the same result and contents as calling it with a separate output vector.", "quantifier": "every input, every system combination", "why_tests_cant": "aliasing behaviour over all inputs", "anchors": ["libraries/KinematicRepresentationLib/KinematicRepresentation.cpp", "libraries/KinematicRepresentationLib/KinematicRepresentation.hpp: 'Supports in-place transformation'"]}
{"id": "C25", "title": "Velocity encodings round-trip", "statement": "decodeVelocity followed by encodeVelocity with the same pose gives back the same velocity for every supported orientation system.", "quantifier": "every pose and velocity, every supported system", "why_tests_cant": "continuum of velocities", "anchors": ["libraries/KinematicRepresentationLib/KinematicRepresentation.cpp: encodeVelocity, decodeVelocity"]}
{"id": "C26", "title": "YarpTinyMath builds rigid transforms with the documented composition", "statement": "rotX/rotY/rotZ, eulerZYZtoH and eulerYZtoH return rigid homogeneous transforms equal to the documented product of elementary rotations in degrees, and xUpdateH overwrites the translation only.", "quantifier": "every angle and every matrix", "why_tests_cant": "continuum of angles", "anchors": ["libraries/YarpTinyMathLib/YarpTinyMath.cpp"]}
{"id": "C27", "title": "axisAngleToH interprets its angle in the documented unit", "statement": "axisAngleToH(x, o) applies a rotation of o[3] degrees about the axis o[0..2].", "quantifier": "every axis and angle", "why_tests_cant": "documented-unit mismatch is invisible at angle 0", "anchors": ["libraries/YarpTinyMathLib/YarpTinyMath.cpp: axisAngleToH", "libraries/YarpTinyMathLib/YarpTinyMath.hpp"]}
{"id": "C28", "title": "Isochronous joint moves respect reference speeds and finish together", "statement": "For a movj, every commanded joint speed is non-negative and at most that joint's reference speed; all joints with positive reference speed reach their targets at the same time, which is the least time allowed by the reference speeds; the move is reported as needed exactly when some such joint has to move.", "quantifier": "every number of joints, every pair of joint vectors, every reference speeds", "why_tests_cant": "unbounded number of joints", "anchors": ["libraries/YarpPlugins/BasicCartesianControl/BasicCartesianControl.cpp: computeIsocronousSpeeds"]}
{"id": "C29", "title": "Joint limit checks are sound", "statement": "For a configuration with limits for every joint, the position check made in every control cycle accepts exactly the joint vectors whose every component is at least 1e-5 inside its range; the check made before streamed poses and twists accepts exactly those motions in which no joint near or beyond a limit moves further towards it (ranges wider than twice 1e-5); the velocity check accepts exactly the velocities within the range of each joint, taken as symmetric when its minimum is zero.", "quantifier": "every number of joints and every values", "why_tests_cant": "unbounded number of joints", "anchors": ["libraries/YarpPlugins/BasicCartesianControl/BasicCartesianControl.cpp: checkJointLimits, checkJointVelocities"]}
{"id": "C30", "title": "A failing control cycle stops the motion", "statement": "In every control cycle in which encoders fail beyond tolerance, the solver fails, a limit is hit, a control mode changed behind the controller's back or the robot refuses a command, the controller leaves the controlling state, marks the motion as failed, sends a stop and sends no further motion command in later cycles until a new command is issued.", "quantifier": "every state, every behaviour of the robot and solver, every later history of cycles", "why_tests_cant": "all histories and failure points", "anchors": ["libraries/YarpPlugins/BasicCartesianControl/PeriodicThreadImpl.cpp: run, handleMovj, handleMovlVel, handleMovlPosd, handleMovv, handleGcmp, handleForc"]}
{"id": "C31", "title": "Velocity commands sent to the robot are within limits", "statement": "Every joint velocity command sent to the robot is within the velocity limits of every joint, and the joint positions read in the same cycle were inside their limits (movl, movv) or no joint at a limit is moved further beyond it (twist); the only exception are the zero velocities twist sends to halt the robot. No other operation commands velocities.", "quantifier": "every state, encoder reading and solver output", "why_tests_cant": "all histories", "anchors": ["libraries/YarpPlugins/BasicCartesianControl/PeriodicThreadImpl.cpp: handleMovlVel, handleMovv", "libraries/YarpPlugins/BasicCartesianControl/ICartesianControlImpl.cpp: twist"]}
{"id": "C32", "title": "Streaming commands act only after being preset", "statement": "pose, twist and wrench send nothing to the robot unless the matching streaming command was preset and no control state change happened since.", "quantifier": "every history of calls and cycles", "why_tests_cant": "all histories", "anchors": ["libraries/YarpPlugins/BasicCartesianControl/ICartesianControlImpl.cpp: pose, twist, wrench, setParameter", "libraries/YarpPlugins/BasicCartesianControl/BasicCartesianControl.cpp: setCurrentState, presetStreamingCommand"]}
{"id": "C33", "title": "Configuration is frozen while controlling", "statement": "While a movement is being controlled setParameter and setParameters change nothing and return false; tool is refused as well.", "quantifier": "every state and every parameter", "why_tests_cant": "all histories", "anchors": ["libraries/YarpPlugins/BasicCartesianControl/ICartesianControlImpl.cpp: setParameter, setParameters, tool"]}
{"id": "C34", "title": "Parameters read back as written", "statement": "After a successful setParameter(k, v) getParameter(k) returns v and every other parameter is unchanged.", "quantifier": "every parameter key and every value", "why_tests_cant": "value domain is all doubles", "anchors": ["libraries/YarpPlugins/BasicCartesianControl/ICartesianControlImpl.cpp: setParameter, getParameter, getParameters"]}
{"id": "C35", "title": "No motion command follows a completed stopControl", "statement": "Once stopControl has returned, the periodic thread sends no motion command until a new movement is requested.", "quantifier": "every interleaving of the control thread with the caller", "why_tests_cant": "depends on thread interleavings", "anchors": ["libraries/YarpPlugins/BasicCartesianControl/ICartesianControlImpl.cpp: stopControl", "libraries/YarpPlugins/BasicCartesianControl/PeriodicThreadImpl.cpp: run"]}
{"id": "C36", "title": "movj leaves the reference speeds as it found them", "statement": "When a joint move completes, fails or is stopped, the joints' reference speeds are those in force before the move.", "quantifier": "every history of commands and cycles", "why_tests_cant": "all histories", "anchors": ["libraries/YarpPlugins/BasicCartesianControl/ICartesianControlImpl.cpp: movj, stopControl", "libraries/YarpPlugins/BasicCartesianControl/PeriodicThreadImpl.cpp: handleMovj"]}
{"id": "C37", "title": "Limits supplied in the configuration are enforced", "statement": "When mins, maxs and maxvels are given in the configuration, the controller checks joint positions and velocities against them.", "quantifier": "every configuration", "why_tests_cant": "configuration space", "anchors": ["libraries/YarpPlugins/BasicCartesianControl/DeviceDriverImpl.cpp: open", "libraries/YarpPlugins/BasicCartesianControl/BasicCartesianControl.cpp: checkJointLimits"]}
{"id": "C38", "title": "Fail-fast trajectory checks bound joint velocities", "statement": "If the fail-fast check accepts a linear trajectory, the joint velocity between consecutive checked samples never exceeds the velocity limits.", "quantifier": "every trajectory, solver and period", "why_tests_cant": "all trajectories", "anchors": ["libraries/YarpPlugins/BasicCartesianControl/BasicCartesianControl.cpp: doFailFastChecks"]}
{"id": "C39", "title": "Client and server agree on every RPC command", "statement": "Calling any ICartesianControl method on the client of a connected server invokes exactly that method with the same arguments on the attached controller and returns its result and outputs unchanged.", "quantifier": "every command, every argument vector, every controller behaviour", "why_tests_cant": "full table of commands times unbounded vectors", "anchors": ["libraries/YarpPlugins/CartesianControlClient/ICartesianControlImpl.cpp", "libraries/YarpPlugins/CartesianControlServer/RpcResponder.cpp", "libraries/YarpPlugins/CartesianControlServer/StreamResponder.cpp"]}
{"id": "C40", "title": "The client reports failure when the server cannot be reached", "statement": "A client call whose request could not be delivered returns false.", "quantifier": "every command", "why_tests_cant": "depends on network failures", "anchors": ["libraries/YarpPlugins/CartesianControlClient/ICartesianControlImpl.cpp: checkSuccess"]}
{"id": "C41", "title": "State streaming never serves stale data", "statement": "stat on the client returns the most recently received streamed state if it arrived within the timeout and otherwise the answer of a fresh RPC request.", "quantifier": "every arrival history and every time", "why_tests_cant": "all histories of arrivals", "anchors": ["libraries/YarpPlugins/CartesianControlClient/FkStreamResponder.cpp", "libraries/YarpPlugins/CartesianControlClient/ICartesianControlImpl.cpp: stat"]}
{"id": "C42", "title": "After detach the server no longer drives the controller", "statement": "Once detach has returned, no request reaches the previously attached controller, and before attach every request is answered with a failure.", "quantifier": "every history of attach/detach/requests", "why_tests_cant": "all histories", "anchors": ["libraries/YarpPlugins/CartesianControlServer/IWrapperImpl.cpp", "libraries/YarpPlugins/CartesianControlServer/CartesianControlServer.hpp"]}
{"id": "C43", "title": "The transform port converts poses only", "statement": "A command sent through the transform port reaches the controller with its pose arguments converted and other quantities (forces, torques) expressed in their own units unchanged.", "quantifier": "every command and representation", "why_tests_cant": "table of commands times representations", "anchors": ["libraries/YarpPlugins/CartesianControlServer/RpcResponder.cpp: RpcTransformResponder::transformIncomingData, handleConsumerCmdMsg"]}
{"id": "C44", "title": "Tools are appended to the original chain and removing them restores it", "statement": "After any sequence of appendLink calls followed by restoreOriginalChain the solver's forward kinematics is the original one; after tool x, forward kinematics is the original followed by the tool transform.", "quantifier": "every history of tool changes", "why_tests_cant": "all histories", "anchors": ["libraries/YarpPlugins/KdlSolver/ICartesianSolverImpl.cpp: appendLink, restoreOriginalChain", "libraries/YarpPlugins/AsibotSolver/ICartesianSolverImpl.cpp: appendLink, restoreOriginalChain"]}
{"id": "C45", "title": "Closed-form IK recovers after the chain is restored", "statement": "If IK worked before a tool was appended, it works again after restoreOriginalChain.", "quantifier": "every history of tool changes", "why_tests_cant": "all histories", "anchors": ["libraries/YarpPlugins/KdlSolver/ChainIkSolverPos_ST.cpp: CartToJnt, updateInternalDataStructures"]}
{"id": "C46", "title": "The one-step IK solver stays within joint limits", "statement": "Every joint value returned by ChainIkSolverPos_ID lies within its limits when the initial guess does not matter; the number of joints is preserved; at the target pose itself it returns the initial guess.", "quantifier": "every chain, guess and target", "why_tests_cant": "all numeric inputs", "anchors": ["libraries/YarpPlugins/KdlSolver/ChainIkSolverPos_ID.cpp: CartToJnt, computeDiffInvKin"]}
{"id": "C47", "title": "Change of origin is composition of poses", "statement": "changeOrigin returns the composition of its arguments, composes with its inverse to the identity, and poseDiff of equal poses is zero.", "quantifier": "every pair of poses", "why_tests_cant": "continuum of poses", "anchors": ["libraries/YarpPlugins/KdlSolver/ICartesianSolverImpl.cpp: changeOrigin, poseDiff"]}
{"id": "C48", "title": "ASIBOT inverse kinematics reaches the requested position", "statement": "Whenever the ASIBOT closed-form inverse kinematics produces angles for a reachable target, forward kinematics of each of the four configurations returns the requested TCP position and orientation pitch.", "quantifier": "every reachable target", "why_tests_cant": "continuum of targets and four branches", "anchors": ["libraries/YarpPlugins/AsibotSolver/ICartesianSolverImpl.cpp: invKin, fwdKin", "libraries/YarpPlugins/AsibotSolver/AsibotConfiguration.cpp: configure"]}
{"id": "C49", "title": "ASIBOT Jacobian is the derivative of its forward kinematics", "statement": "Each entry of the translational block of the base Jacobian is the partial derivative of the corresponding TCP coordinate with respect to the corresponding joint.", "quantifier": "every joint position", "why_tests_cant": "continuum of joint positions", "anchors": ["libraries/YarpPlugins/AsibotSolver/ICartesianSolverImpl.cpp: diffInvKin, fwdKin"]}
{"id": "C50", "title": "Cubic trajectories meet their boundary conditions", "statement": "The third-order generator starts and ends at the requested positions with the requested velocities, the first-order one at the requested positions; queries outside [0,T] return the boundary values.", "quantifier": "every boundary condition and positive duration", "why_tests_cant": "continuum", "anchors": ["libraries/YarpPlugins/AsibotSolver/TrajGen.hpp: OrderOneTraj, OrderThreeTraj"]}
{"id": "C51", "title": "Trajectory limit checks are sound", "statement": "maxVelBelow(v) returns true only if the absolute velocity never exceeds v along the trajectory, and maxAccBelow(a) only if the absolute acceleration never exceeds a.", "quantifier": "every trajectory and threshold", "why_tests_cant": "continuum", "anchors": ["libraries/YarpPlugins/AsibotSolver/TrajGen.hpp: maxVelBelow, maxAccBelow"]}
{"id": "C52", "title": "Merged TCPs receive the target of the TCP they are merged with", "statement": "In the tree solver every merged endpoint gets exactly the target of the endpoint it is merged with and every other endpoint the next six input components, in order.", "quantifier": "every list of endpoints and merge table accepted by open", "why_tests_cant": "all configurations", "anchors": ["libraries/YarpPlugins/KdlTreeSolver/ICartesianSolverImpl.cpp: invKin, diffInvKin, invDyn", "libraries/YarpPlugins/KdlTreeSolver/DeviceDriverImpl.cpp: open"]}
{"id": "C53", "title": "Force compensation deadband is continuous, direction-preserving and exact", "statement": "The command sent by ftCompensation is zero inside the deadband, otherwise it points along the measured force with magnitude gain*(|F|-deadband); an unloaded tool yields a zero command in every orientation.", "quantifier": "every wrench, gain, deadband and orientation", "why_tests_cant": "continuum", "anchors": ["programs/ftCompensation/FtCompensation.cpp: run, compensateTool, readSensor"]}
{"id": "C54", "title": "ftCompensation starts only with a working sensor", "statement": "configure proceeds past the sensor wait exactly when the sensor reported OK within the allowed retries.", "quantifier": "every sequence of sensor statuses", "why_tests_cant": "off-by-one at the last retry", "anchors": ["programs/ftCompensation/FtCompensation.cpp: configure (sensor wait loop)"]}
{"id": "C55", "title": "The streaming controller stops the robot once per motion", "statement": "Along any history of updates, a stop command is sent exactly when motion ceases (no valid data or obstacle), never twice in a row, and movement commands in twist mode have zero components on the axes configured as fixed.", "quantifier": "every history of sensor readings", "why_tests_cant": "all histories", "anchors": ["programs/streamingDeviceController/StreamingDeviceController.cpp: update", "programs/streamingDeviceController/StreamingDevice.cpp: transformData, hasValidMovementData"]}
{"id": "C56", "title": "The streaming controller stops the robot when its input device fails", "statement": "If acquiring data fails while the robot is moving, the robot is commanded to stop.", "quantifier": "every history of sensor readings", "why_tests_cant": "all histories", "anchors": ["programs/streamingDeviceController/StreamingDeviceController.cpp: update"]}
{"id": "C57", "title": "Keyboard joint commands respect limits", "statement": "Every joint velocity (resp. position) command issued by keyboardController is within the joint's velocity (resp. position) limits for any sequence of keys.", "quantifier": "every key sequence", "why_tests_cant": "all histories", "anchors": ["programs/keyboardController/KeyboardController.cpp: incrementOrDecrementJointCommand, issueStop"]}
{"id": "C58", "title": "Appending a formula terminates", "statement": "append(poe, H) finishes for every argument, including the formula itself.", "quantifier": "every formula and transform, every aliasing of argument and target", "why_tests_cant": "termination under aliasing", "anchors": ["libraries/ScrewTheoryLib/ProductOfExponentials.cpp: append"]}
{"id": "C59", "title": "A translation subproblem only claims reachability of targets it can reach", "statement": "PardosGotorOne and PardosGotorTwo report the target as reachable only if some translation along their axis (or axes) takes the point to it.", "quantifier": "every axis or pair of axes, every target", "why_tests_cant": "The flag is a constant; tests only try reachable targets, so they never see it wrong.", "anchors": ["libraries/ScrewTheoryLib/PardosGotorSubproblems.cpp: PardosGotorOne::solve, PardosGotorTwo::solve", "libraries/ScrewTheoryLib/ScrewTheoryIkProblem.hpp: ScrewTheoryIkSubproblem::solve"]}
{"id": "C60", "title": "Roll-pitch-yaw rates mean what their order says", "statement": "encodeVelocity in the RPY system, given the rates of roll, pitch and yaw of a moving frame in this order, returns the angular velocity of that frame.", "quantifier": "every orientation and every rates", "why_tests_cant": "an identity between real functions (time derivative of a rotation), for all angles", "anchors": ["libraries/KinematicRepresentationLib/KinematicRepresentation.cpp: encodeVelocity", "libraries/KinematicRepresentationLib/KinematicRepresentation.hpp: orientation_system::RPY"]}
{"id": "C61", "title": "Names of the representation systems", "statement": "parseEnumerator accepts exactly the documented names, each giving its own enumerator; any other string gives the fallback and false.", "quantifier": "every string and every fallback", "why_tests_cant": "all strings", "anchors": ["libraries/KinematicRepresentationLib/KinematicRepresentation.cpp: parseEnumerator"]}
{"id": "C62", "title": "A pose vector that is too short is refused by the velocity codecs", "statement": "encodeVelocity and decodeVelocity never read outside of their arguments: if the pose they need is too short they return false.", "quantifier": "every size of every argument", "why_tests_cant": "undefined behaviour: a test that happens to read valid memory passes", "anchors": ["libraries/KinematicRepresentationLib/KinematicRepresentation.cpp: encodeVelocity, decodeVelocity"]}
{"id": "C63", "title": "An accepted control period is usable", "statement": "After setParameter has accepted a control period, every controlled movement computes finite commands.", "quantifier": "every period and every later history", "why_tests_cant": "all values, including those between 0 and 1 ms", "anchors": ["libraries/YarpPlugins/BasicCartesianControl/ICartesianControlImpl.cpp: setParameter", "libraries/YarpPlugins/BasicCartesianControl/PeriodicThreadImpl.cpp: handleMovlVel, handleMovv"]}
{"id": "C64", "title": "wait reports success only for completed movements", "statement": "wait returns true only if the movement waited for was completed: the robot reported the joint move as done, or the time of the linear trajectory elapsed; it returns false if errors occurred.", "quantifier": "every interleaving of the waiting caller with the periodic thread, every behaviour of robot and solver", "why_tests_cant": "all interleavings", "anchors": ["libraries/YarpPlugins/BasicCartesianControl/ICartesianControlImpl.cpp: wait", "libraries/YarpPlugins/ICartesianControl.h: wait"]}
{"id": "C65", "title": "The controller never reads or writes out of bounds", "statement": "For a robot whose limits are known, with a solver that gives back as many numbers as it should and callers that pass six numbers per endpoint, no operation of the controller accesses an array out of bounds, whatever operations came before and whatever failed.", "quantifier": "every number of joints and endpoints, every history of operations, every behaviour of robot and solver", "why_tests_cant": "all histories; undefined behaviour often goes unnoticed in a test", "anchors": ["libraries/YarpPlugins/BasicCartesianControl/ICartesianControlImpl.cpp", "libraries/YarpPlugins/BasicCartesianControl/PeriodicThreadImpl.cpp", "libraries/YarpPlugins/BasicCartesianControl/BasicCartesianControl.cpp"]}
{"id": "C66", "title": "Targets in the tool frame are relative to the guessed configuration", "statement": "invKin with a target in the tool frame behaves exactly as invKin with the base-frame target obtained by composing the forward kinematics of the guessed joints with that target; any other reference frame is refused without side effects.", "quantifier": "every chain, guess and target", "why_tests_cant": "continuum of poses", "anchors": ["libraries/YarpPlugins/KdlSolver/ICartesianSolverImpl.cpp: invKin", "libraries/YarpPlugins/ICartesianSolver.h: invKin"]}
{"id": "C67", "title": "invKin succeeds only if the pose is reached", "statement": "If invKin returns true, the forward kinematics of the returned joints is the requested pose, and the joints are within their limits.", "quantifier": "every chain, guess and target", "why_tests_cant": "continuum of poses; unreachable ones are hard to sample", "anchors": ["libraries/YarpPlugins/KdlSolver/ICartesianSolverImpl.cpp: invKin", "libraries/YarpPlugins/KdlSolver/ChainIkSolverPos_ST.cpp: CartToJnt", "libraries/YarpPlugins/ICartesianSolver.h: invKin"]}
{"id": "C68", "title": "The arm solver chooses the configuration with the least travel", "statement": "Among the joint configurations that reach the pose within the limits, invKin of the ASIBOT solver returns one of least total joint travel from the guess, or the runner-up if that one moves the second joint less.", "quantifier": "every arm geometry, limits, guess and target that two angles describe", "why_tests_cant": "continuum of poses and guesses; ties and unreachable candidates are hard to sample", "anchors": ["libraries/YarpPlugins/AsibotSolver/ICartesianSolverImpl.cpp: invKin", "libraries/YarpPlugins/AsibotSolver/AsibotConfiguration.cpp", "libraries/YarpPlugins/AsibotSolver/AsibotConfigurationLeastOverallAngularDisplacement.cpp: findOptimalConfiguration"]}
{"id": "C69", "title": "Differential kinematics accounts for the tool", "statement": "With a tool appended, the velocity that diffInvKin of the ASIBOT solver turns into joint velocities is the velocity of the tip of the tool, in the base frame and in the frame of the tool.", "quantifier": "every arm geometry, tool and configuration", "why_tests_cant": "continuum of configurations and tools; derivatives", "anchors": ["libraries/YarpPlugins/AsibotSolver/ICartesianSolverImpl.cpp: diffInvKin", "libraries/YarpPlugins/ICartesianSolver.h: diffInvKin"]}
{"id": "C70", "title": "Movements run in their control mode", "statement": "When a command that starts a movement (movj, relj, movl, movv, gcmp, forc) or the preset of a streaming command succeeds, the robot has reported every joint in the control mode of that movement (position for joint moves; velocity, or position-direct if so configured, for linear moves; velocity for movv and twist; torque for gcmp, forc and wrench; position-direct for pose), and no other mode has been asked for.", "quantifier": "every number of joints, every state of the controller and every behaviour of the robot", "why_tests_cant": "all behaviours of the robot, including joints that change mode late or never", "anchors": ["libraries/YarpPlugins/BasicCartesianControl/ICartesianControlImpl.cpp: movj, movl, movv, gcmp, forc, setParameter", "libraries/YarpPlugins/BasicCartesianControl/BasicCartesianControl.cpp: setControlModes, presetStreamingCommand"]}
{"id": "C71", "title": "The impedance spring pulls the tool back to where it was", "statement": "With impedance enabled and no contact, ftCompensation commands a force that, seen from the base, pulls the TCP back towards the pose it had at start and opposes its velocity.", "quantifier": "every pose, gain and orientation", "why_tests_cant": "continuum of orientations; the error vanishes at the orientation usually tried", "anchors": ["programs/ftCompensation/FtCompensation.cpp: applyImpedance, run", "programs/ftCompensation/FtCompensation.cpp: configure (TCP frame)"]}
{"id": "C72", "title": "ftCompensation does not leave the robot moving when it ends", "statement": "Whenever ftCompensation ends after having commanded a motion, by interruption or because the sensor or the controller failed, the robot is told to stop.", "quantifier": "every history of readings and failures", "why_tests_cant": "all histories", "anchors": ["programs/ftCompensation/FtCompensation.cpp: run, updateModule, interruptModule, close"]}
{"id": "C73", "title": "ftCompensation commands only what its mode says, in the TCP frame", "statement": "A dry run never sends anything to the robot. Otherwise the TCP frame is selected and, if the controller supports it, the streaming command preset before any motion, and every motion command is of the kind chosen in the configuration. A configuration that fails never moves the robot.", "quantifier": "every configuration, every answer of the devices and every history of readings", "why_tests_cant": "all histories", "anchors": ["programs/ftCompensation/FtCompensation.cpp: configure, run"]}
{"id": "C74", "title": "The gripper follows the buttons", "statement": "In every cycle of the streaming controller with a SpaceNavigator whose reading brings the buttons, a close (open) command is sent exactly while the close (open) button is pressed, one stop command is sent when the buttons are released, and nothing afterwards.", "quantifier": "every history of readings, in both modes, with and without the centroid handler", "why_tests_cant": "all histories", "anchors": ["programs/streamingDeviceController/SpnavSensorDevice.cpp: getActuatorState", "programs/streamingDeviceController/StreamingDeviceController.cpp: update"]}
{"id": "C75", "title": "A near obstacle slows the robot down", "statement": "For the same reading of the input device, a cycle that sees an obstacle above the low threshold commands half the velocity it would command without it.", "quantifier": "every history, every reading, every input device", "why_tests_cant": "all histories and real inputs", "anchors": ["programs/streamingDeviceController/StreamingDeviceController.cpp: update", "programs/streamingDeviceController/WiimoteSensorDevice.cpp: transformData, sendMovementCommand", "programs/streamingDeviceController/LeapMotionSensorDevice.cpp: transformData"]}
{"id": "C76", "title": "The centroid handler steers the camera towards its target", "statement": "While a centroid is in force (it has just arrived, or the last one is within its permanence time and nothing has arrived) and the operator pushes along the optical axis, the commanded linear velocity is the projection of the operator's on the optical axis and the commanded angular velocity is orthogonal to it and moves it towards the centroid in proportion to its distance. If the operator pulls back, the operator's command goes through unchanged.", "quantifier": "every history of readings and centroids, every pose of the robot, every mounting of the camera", "why_tests_cant": "all histories and real inputs", "anchors": ["programs/streamingDeviceController/CentroidTransform.cpp: acceptBottle, processStoredBottle", "programs/streamingDeviceController/StreamingDeviceController.cpp: update"]}
{"id": "C77", "title": "Pose streaming accumulates the readings", "statement": "In pose mode with a SpaceNavigator every commanded pose is the previous one (the initial one at first) plus gain over scaling times the reading on the free axes, and equal to it on the fixed ones; a cycle without a push on a free axis or with an obstacle commands no pose.", "quantifier": "every history of readings", "why_tests_cant": "all histories", "anchors": ["programs/streamingDeviceController/SpnavSensorDevice.cpp: transformData, hasValidMovementData, sendMovementCommand"]}
{"id": "C78", "title": "An obstacle keeps the robot stopped", "statement": "While the proximity sensors last reported an obstacle above the high threshold, the robot is at rest.", "quantifier": "every history of readings, every input device", "why_tests_cant": "all histories", "anchors": ["programs/streamingDeviceController/StreamingDeviceController.cpp: update", "programs/streamingDeviceController/LeapMotionSensorDevice.hpp: stopMotion"]}
{"id": "C79", "title": "The robot goes where the hand has gone", "statement": "With a Leap Motion sensor the commanded pose is the initial pose of the robot moved as the hand has moved since the first reading, seen through the mounting of the sensor and divided by the scaling. In twist mode, the commanded velocity times the time between two readings is the displacement between their poses.", "quantifier": "every history of readings, every mounting of the sensor, every initial pose", "why_tests_cant": "all histories and real inputs", "anchors": ["programs/streamingDeviceController/LeapMotionSensorDevice.cpp: initialize, acquireData, transformData, sendMovementCommand"]}
{"id": "C80", "title": "Any other key stops the robot", "statement": "Pressing a key of keyboardController without a meaning stops everything that earlier keys set in motion: the Cartesian motion, the streamed poses, the gripper and the joints.", "quantifier": "every history of keys, every answer of the devices, with one or both devices", "why_tests_cant": "all histories", "anchors": ["programs/keyboardController/KeyboardController.cpp: issueStop, updateModule"]}
{"id": "C81", "title": "Joint and Cartesian motions are not mixed", "statement": "When a joint (Cartesian) key is pressed during a Cartesian (joint) motion, that motion is stopped before the new command is sent.", "quantifier": "every history of keys, every answer of the devices", "why_tests_cant": "all histories", "anchors": ["programs/keyboardController/KeyboardController.cpp: incrementOrDecrementJointCommand, incrementOrDecrementCartesianCommand, issueStop"]}
{"id": "C82", "title": "Cartesian keys add up", "statement": "In velocity mode the command sent by a Cartesian key is, on each axis, 5 mm/s (0.01 rad/s) times the presses of its up key minus those of its down key since the last key that stops; keys that print or actuate the tool do not count.", "quantifier": "every history of keys, every answer of the devices", "why_tests_cant": "all histories", "anchors": ["programs/keyboardController/KeyboardController.cpp: incrementOrDecrementCartesianCommand, issueStop"]}
{"id": "C83", "title": "No key sequence is undefined", "statement": "With joint limits in order, no sequence of keys makes keyboardController do something undefined, whatever the devices answer.", "quantifier": "every history of keys, every answer of the devices", "why_tests_cant": "all histories", "anchors": ["programs/keyboardController/KeyboardController.cpp: incrementOrDecrementJointCommand", "programs/keyboardController/LinearTrajectoryThread.cpp: configure, run"]}
{"id": "C84", "title": "Streamed poses follow the commanded velocity", "statement": "In pose mode, while the presses add up to a velocity, each period streams: in the TCP frame, the velocity times the period; in the base frame, the pose found when the last Cartesian key was pressed moved by that velocity for the time since then. When they add up to nothing, no pose is streamed.", "quantifier": "every history of keys, every starting pose and every velocity below half a turn per second", "why_tests_cant": "continuum of poses and times; all histories", "anchors": ["programs/keyboardController/LinearTrajectoryThread.cpp: configure, run", "programs/keyboardController/KeyboardController.cpp: incrementOrDecrementCartesianCommand"]}
{"id": "C85", "title": "What a joint key commands", "statement": "With n joints in the mode asked for, a joint key commands, in position mode, the present position plus or minus the step, and in velocity mode the last commanded velocity (zero after a stop) plus or minus the step, both cut at the limits.", "quantifier": "every history of keys, every answer of the devices", "why_tests_cant": "all histories", "anchors": ["programs/keyboardController/KeyboardController.cpp: incrementOrDecrementJointCommand, toggleJointMode, issueStop"]}
{"id": "C86", "title": "Forward kinematics is what the configuration describes", "statement": "For every configuration that the chain solver accepts, the forward kinematics is the product of H0, of the links in their order (Denavit-Hartenberg parameters, or a rotation or translation of the named type followed by the x, y, z offset) and of HN.", "quantifier": "every number and kind of links, all parameters and all joint values", "why_tests_cant": "continuum of parameters; all combinations of link kinds", "anchors": ["libraries/YarpPlugins/KdlSolver/DeviceDriverImpl.cpp: open", "libraries/YarpPlugins/KdlSolver/ICartesianSolverImpl.cpp: fwdKin"]}
{"id": "C87", "title": "Joint values are in the documented units", "statement": "Joint values are taken in degrees for rotary joints and in metres for prismatic ones.", "quantifier": "every accepted configuration and all joint values", "why_tests_cant": "all combinations of link kinds", "anchors": ["libraries/YarpPlugins/ICartesianSolver.h: fwdKin", "libraries/YarpPlugins/KdlSolver/ICartesianSolverImpl.cpp: fwdKin", "libraries/YarpPlugins/KdlSolver/DeviceDriverImpl.cpp: open"]}
{"id": "C88", "title": "A configuration is accepted whole or rejected", "statement": "An accepted configuration yields one joint for each announced link; if one of the links is missing the configuration is rejected; the solvers that respect limits get exactly one ordered pair of limits for each joint, in the order of the file.", "quantifier": "every configuration", "why_tests_cant": "all configurations, including wrong ones", "anchors": ["libraries/YarpPlugins/KdlSolver/DeviceDriverImpl.cpp: parseLinkFromConfig, open, retrieveJointLimits"]}
{"id": "C89", "title": "The tree solver gives each endpoint the pose that the configuration describes", "statement": "The forward kinematics of the tree solver has one pose for each endpoint, in the order of the file: the product along the path from the root through the hook points. The joints of a chain that is not on that path do not move the endpoint.", "quantifier": "every tree of chains, all parameters and joint values", "why_tests_cant": "all shapes of trees", "anchors": ["libraries/YarpPlugins/KdlTreeSolver/DeviceDriverImpl.cpp: open", "libraries/YarpPlugins/KdlTreeSolver/ICartesianSolverImpl.cpp: fwdKin"]}
{"id": "C90", "title": "The tree solver agrees with the chain solver on a single chain", "statement": "With one chain in the configuration, both solvers have the same number of joints and the same forward kinematics, pose difference and change of origin.", "quantifier": "every chain, all joint values and poses", "why_tests_cant": "all configurations", "anchors": ["libraries/YarpPlugins/KdlTreeSolver/ICartesianSolverImpl.cpp: fwdKin, poseDiff, changeOrigin", "libraries/YarpPlugins/KdlSolver/ICartesianSolverImpl.cpp"]}
{"id": "C91", "title": "Current poses of a tree are targets for themselves", "statement": "The output of the forward kinematics of the tree solver, passed as the target of its inverse kinematics, asks each endpoint that is not merged for the pose it has.", "quantifier": "every tree, all joint values", "why_tests_cant": "all shapes of trees and mergings", "anchors": ["libraries/YarpPlugins/KdlTreeSolver/ICartesianSolverImpl.cpp: fwdKin, invKin"]}
{"id": "C92", "title": "Velocities and forces in the tool frame are those of the base turned by the current orientation", "statement": "Velocities given to diffInvKin in the tool frame, and forces given to invDyn in the base frame, are equivalent to those in the other frame turned by the current orientation of each endpoint; poses in the tool frame are moved by its current pose. Any other frame is refused.", "quantifier": "every chain and tree, all joint values, twists, wrenches and poses", "why_tests_cant": "continuum of configurations", "anchors": ["libraries/YarpPlugins/KdlSolver/ICartesianSolverImpl.cpp: diffInvKin, invDyn", "libraries/YarpPlugins/KdlTreeSolver/ICartesianSolverImpl.cpp: invKin, diffInvKin, invDyn"]}
{"id": "C93", "title": "Joint velocities produce the velocity asked for", "statement": "If the velocity solver of KDL is exact, joints that move with the velocities returned by diffInvKin move each endpoint, as forward kinematics tells, with the velocity asked for, expressed in the base or in the tool frame.", "quantifier": "every chain and tree, all joint values and twists", "why_tests_cant": "continuum of configurations; derivatives; units", "anchors": ["libraries/YarpPlugins/KdlSolver/ICartesianSolverImpl.cpp: diffInvKin, fwdKin", "libraries/YarpPlugins/KdlTreeSolver/ICartesianSolverImpl.cpp: diffInvKin, fwdKin"]}
{"id": "C94", "title": "Gravity torques are the torques of a robot at rest", "statement": "invDyn with the positions alone gives the same torques as invDyn with zero velocities, zero accelerations and zero external forces in either frame.", "quantifier": "every chain and tree, all joint values", "why_tests_cant": "continuum of configurations", "anchors": ["libraries/YarpPlugins/ICartesianSolver.h: invDyn", "libraries/YarpPlugins/KdlSolver/ICartesianSolverImpl.cpp: invDyn", "libraries/YarpPlugins/KdlTreeSolver/ICartesianSolverImpl.cpp: invDyn"]}
{"id": "C95", "title": "The haar controller follows the last reading", "statement": "While the haar detection program runs and no target has been sensed, the motion in force is the one the last two-number reading asks for: none when the object is centred or nothing was read yet, otherwise a twist across the image proportional to the offsets, forwards unless noApproach is set. Readings of any other size change nothing.", "quantifier": "all sequences of readings and periods", "why_tests_cant": "unbounded sequences of readings", "anchors": ["programs/haarDetectionController/GrabberResponder.cpp: onRead", "programs/haarDetectionController/HaarDetectionController.cpp: configure"]}
{"id": "C96", "title": "The haar controller stops before it grasps and when it ends", "statement": "When the proximity sensor reports a target the haar detection program stops the robot, then closes the gripper and sends nothing else, whatever readings come later. The gripper is closed in no other case. However the program ends nothing is in force afterwards. With noMove, or when the start fails, no twist is sent; every twist is sent with the tool frame selected.", "quantifier": "all sequences of readings and periods, all configurations", "why_tests_cant": "unbounded sequences of events and device failures", "anchors": ["programs/haarDetectionController/HaarDetectionController.cpp: configure", "programs/haarDetectionController/HaarDetectionController.cpp: updateModule", "programs/haarDetectionController/HaarDetectionController.cpp: interruptModule"]}
{"id": "C97", "title": "The reachable flag means that the pose is reached", "statement": "For every problem that the builder returns, a joint vector returned with the reachable flag set makes the forward kinematics return the target pose; at least every point at which a step aims is where the target wants it, up to the tolerance of the step.", "quantifier": "every problem returned by the builder, every target", "why_tests_cant": "continuum of geometries and poses; tests only use targets obtained from joint values", "anchors": ["libraries/ScrewTheoryLib/ScrewTheoryIkProblem.cpp: solve", "libraries/ScrewTheoryLib/ScrewTheoryIkProblemBuilder.cpp: build"]}
{"id": "C98", "title": "The joints answered by invKin bring the tool to the requested pose", "statement": "For a solver device with the closed-form algorithm on an arm of six rotary joints with crossing shoulder axes and a spherical wrist, after any history of tool changes and requests, when invKin succeeds without a warning then fwdKin of the joints it answers is the requested pose up to the tolerance of the library, in the base and in the tool frame.", "quantifier": "every arm of that class, every history of appendLink, restoreOriginalChain and invKin, every target", "why_tests_cant": "continuum of geometries and poses times unbounded histories", "anchors": ["libraries/YarpPlugins/KdlSolver/ICartesianSolverImpl.cpp: invKin, fwdKin, appendLink, restoreOriginalChain", "libraries/YarpPlugins/KdlSolver/ChainIkSolverPos_ST.cpp: CartToJnt, updateInternalDataStructures", "libraries/ScrewTheoryLib/ScrewTheoryIkProblem.cpp: solve"]}
{"id": "C99", "title": "invKin inverts fwdKin", "statement": "For the same devices with the least-displacement strategy, the first call of invKin for the pose that fwdKin gives for joint values within the limits succeeds; its answer is within the limits and no farther from the guess than those joint values; in particular with those joint values as the guess the answer is exactly those joint values (away from singular poses).", "quantifier": "every arm of that class, every tool, every joint vector within the limits", "why_tests_cant": "continuum of geometries and joint values", "anchors": ["libraries/YarpPlugins/KdlSolver/ICartesianSolverImpl.cpp: invKin, fwdKin", "libraries/YarpPlugins/KdlSolver/ChainIkSolverPos_ST.cpp: CartToJnt", "libraries/ScrewTheoryLib/ConfigurationSelectorLeastOverallAngularDisplacement.cpp: findOptimalConfiguration"]}
{"id": "C100", "title": "The screw-theory forward solver can replace that of KDL", "statement": "ChainFkSolverPos_ST returns the same pose as KDL's recursive solver for every chain and joint array once it has been updated after the last change of the chain, and refuses joint arrays of another size and requests for single segments without touching the output.", "quantifier": "every chain, every joint array, every history of chain changes and updates", "why_tests_cant": "continuum of geometries times unbounded histories", "anchors": ["libraries/YarpPlugins/KdlSolver/ChainFkSolverPos_ST.cpp: JntToCart, updateInternalDataStructures"]}
{"id": "C101", "title": "Closed-form inverse kinematics of a Stanford-type arm reproduces the pose", "statement": "For an arm of two crossing rotations, a sliding joint and a wrist of three crossing rotations that the problem builder solves with its usual five steps, every candidate returned together with a true flag makes forward kinematics of the original formula return the requested pose, up to the tolerances of the subproblems; conversely joint values off the singular positions are among the candidates for the pose they produce, and no target makes the solver divide by zero.", "quantifier": "every geometry of this kind, every draw of the builder, direct and reversed formulas, every target pose", "why_tests_cant": "continuum of geometries and targets; the tests use one Stanford arm and one target", "anchors": ["libraries/ScrewTheoryLib/ScrewTheoryIkProblem.cpp: solve", "libraries/ScrewTheoryLib/ScrewTheoryIkProblemBuilder.cpp: build", "libraries/ScrewTheoryLib/PadenKahanSubproblems.cpp", "libraries/ScrewTheoryLib/PardosGotorSubproblems.cpp: PardosGotorThree"]}
{"id": "C102", "title": "Closed-form inverse kinematics of an arm on a linear track reproduces the pose", "statement": "For an arm of a joint sliding along two parallel rotations followed by a wrist of three crossing rotations that the problem builder solves with its usual steps, every candidate returned together with a true flag makes forward kinematics of the original formula return the requested pose, up to the tolerances of the subproblems, as long as the wrist is not wanted at the nearest place the two parallel rotations can bring it to; conversely joint values off the singular positions are among the candidates for the pose they produce, and no target makes the solver divide by zero.", "quantifier": "every geometry of this kind, every draw of the builder, direct and reversed formulas, every target pose off the folded position", "why_tests_cant": "continuum of geometries and targets; the tests use one IRB 6620LX and one target", "anchors": ["libraries/ScrewTheoryLib/ScrewTheoryIkProblem.cpp: solve", "libraries/ScrewTheoryLib/ScrewTheoryIkProblemBuilder.cpp: build", "libraries/ScrewTheoryLib/PardosGotorSubproblems.cpp: PardosGotorOne, PardosGotorFour", "libraries/ScrewTheoryLib/PadenKahanSubproblems.cpp"]}
{"id": "C103", "title": "Closed-form inverse kinematics of a SCARA arm reproduces the pose", "statement": "For an arm of two parallel rotations, a joint sliding along them and a third rotation about the same direction, every candidate returned together with a true flag makes forward kinematics of the original formula return the requested pose, up to the tolerances of the subproblems, whatever the orientation requested; conversely joint values off the singular positions are among the candidates for the pose they produce, and no target makes the solver divide by zero.", "quantifier": "every geometry of this kind, every draw of the builder, direct and reversed formulas, every target pose", "why_tests_cant": "continuum of geometries and targets; the tests use one IRB 910SC and one reachable target", "anchors": ["libraries/ScrewTheoryLib/ScrewTheoryIkProblem.cpp: solve", "libraries/ScrewTheoryLib/ScrewTheoryIkProblemBuilder.cpp: build", "libraries/ScrewTheoryLib/PardosGotorSubproblems.cpp: PardosGotorOne, PardosGotorFour", "libraries/ScrewTheoryLib/PadenKahanSubproblems.cpp: PadenKahanOne"]}
{"id": "C104", "title": "movl moves every endpoint along its line, at every moment where the line says", "statement": "While a movement started by movl runs in position-direct mode, every joint position sent to the robot is an inverse-kinematics solution for poses lying on the straight line (single-axis turn, same proportion) from where each endpoint was to where it was asked to go, at the point that corresponds to the time of that very cycle; the movement along the line goes from rest to rest, never backwards, within 10 units/s and 10 units/s^2, in the configured duration or, if that is too short, in the least time; other commands meanwhile (queries, refused settings) change nothing of this; nothing else moves the robot, and nothing is sent after the time of any line is over.", "quantifier": "every number of joints and endpoints, start and target poses whose distance KDL can see, durations, clock readings, robot and solver answers, any sequence of cycles and other commands", "why_tests_cant": "a statement about every command of every run, over all clocks and poses; tests have no controller with KDL trajectories and a robot", "anchors": ["libraries/YarpPlugins/BasicCartesianControl/ICartesianControlImpl.cpp: movl", "libraries/YarpPlugins/BasicCartesianControl/PeriodicThreadImpl.cpp: run, handleMovlPosd"]}
{"id": "C105", "title": "movl ends with the endpoints at their targets", "statement": "When movl reports success (wait returns true), every endpoint has been told to go to its target, up to what one control period allows.", "quantifier": "every movement, clock readings, number of endpoints", "why_tests_cant": "the last command depends on how cycles fall relative to the end of each line", "anchors": ["libraries/YarpPlugins/BasicCartesianControl/ICartesianControlImpl.cpp: movl, wait", "libraries/YarpPlugins/BasicCartesianControl/PeriodicThreadImpl.cpp: handleMovlPosd, handleMovlVel"]}
{"id": "C106", "title": "With velocity commands movl follows its line with feed-forward and a proportional correction", "statement": "While a movement started by movl runs in velocity mode, every joint velocity sent is a differential-inverse-kinematics solution, at the joint positions just read, for the velocity of the line at the time of that cycle plus gain * 1000 / period times the difference that the solver tells between the pose on the line and the current one.", "quantifier": "every number of joints and endpoints, start and target poses, gains, periods, clock readings, robot and solver answers, any sequence of cycles and other commands", "why_tests_cant": "the derivative of the line at every moment and the control law in every cycle of every run", "anchors": ["libraries/YarpPlugins/BasicCartesianControl/ICartesianControlImpl.cpp: movl", "libraries/YarpPlugins/BasicCartesianControl/PeriodicThreadImpl.cpp: run, handleMovlVel"]}
{"id": "C107", "title": "movv sends the requested velocity with a proportional correction", "statement": "While a movement started by movv runs and for the first ten units of path, every joint velocity sent is a differential-inverse-kinematics solution, at the joint positions just read and in the configured frame, for the velocity asked for plus gain * 1000 / period times the difference that the solver tells between the current pose and the pose that constant motion (linear and angular, seen from the base) would have reached by now.", "quantifier": "every number of joints and endpoints, velocities that turn less than half a turn per second, gains, periods, clock readings, robot and solver answers, any sequence of cycles and other commands", "why_tests_cant": "a statement about every command of every run over all velocities and clocks", "anchors": ["libraries/YarpPlugins/BasicCartesianControl/ICartesianControlImpl.cpp: movv", "libraries/YarpPlugins/BasicCartesianControl/PeriodicThreadImpl.cpp: run, handleMovv"]}
{"id": "C108", "title": "movv keeps a constant velocity until it is stopped", "statement": "A robot that has moved exactly as movv asked, in the configured reference frame, is told to go on with exactly the velocity asked for, until stop.", "quantifier": "every velocity, reference frame and time since the start", "why_tests_cant": "must hold however long the movement lasts, for every frame and rate", "anchors": ["libraries/YarpPlugins/BasicCartesianControl/ICartesianControlImpl.cpp: movv", "libraries/YarpPlugins/BasicCartesianControl/PeriodicThreadImpl.cpp: handleMovv"]}
{"id": "C109", "title": "Gravity compensation and force control send the torques that the robot's dynamics call for", "statement": "While gravity compensation runs, every torque vector sent to the robot is the solver's static torques for the joint positions just read, which are within the limits; while force control runs, it is the solver's torques for the positions, speeds and accelerations just read in which the robot exerts the force asked for (the environment exerts the opposite one), in the reference frame chosen; nothing else moves the robot meanwhile.", "quantifier": "every number of joints, forces, robot and solver answers, any sequence of cycles and other commands", "why_tests_cant": "a statement about every command of every run, including sign and frame of the force; tests have no robot dynamics", "anchors": ["libraries/YarpPlugins/BasicCartesianControl/ICartesianControlImpl.cpp: gcmp, forc", "libraries/YarpPlugins/BasicCartesianControl/PeriodicThreadImpl.cpp: run, handleGcmp, handleForc"]}
{"id": "C110", "title": "Each streamed command is carried out from the current joint positions, or the robot is held, for a reason", "statement": "With the streaming mode preset and the joints in the matching mode: a pose sends joint positions that reach it and do not go further out from a limit, or nothing; a twist sends joint velocities that move the endpoint as asked within the speed limits and not further out from a limit, or zero velocities; a wrench sends torques that exert it, or torques that hold the robot; and the second of each happens only if a call failed or the limits would be violated.", "quantifier": "every number of joints, poses, twists, wrenches, limits, robot and solver answers", "why_tests_cant": "what is sent in each of many failure cases, over all numbers", "anchors": ["libraries/YarpPlugins/BasicCartesianControl/ICartesianControlImpl.cpp: pose, twist, wrench"]}
{"id": "C111", "title": "relj moves the endpoints by the offset given", "statement": "relj moves every endpoint by the offset (translation and rotation) from its current pose: in the tool frame, to the pose that the offset is in that frame; in the base frame, to the current pose translated and turned by the offset along the axes of the base.", "quantifier": "every number of endpoints, current poses and offsets, robot and solver answers", "why_tests_cant": "offsets and current orientations are continuous; tests would only try rotations about one axis", "anchors": ["libraries/YarpPlugins/BasicCartesianControl/ICartesianControlImpl.cpp: relj, movj"]}
{"id": "C112", "title": "A command that is turned down changes nothing", "statement": "If movj, relj, movl, movv, gcmp or forc returns false, the robot has not been moved by it, the controller's state and variables are as before, and the movement that was in progress goes on as it was.", "quantifier": "every command, state in which it is given, reason of failure, and what the robot and solver answer", "why_tests_cant": "the leftovers of a failed command show only in the following cycles of an earlier movement", "anchors": ["libraries/YarpPlugins/BasicCartesianControl/ICartesianControlImpl.cpp: movj, relj, movl, movv, gcmp, forc", "libraries/YarpPlugins/BasicCartesianControl/PeriodicThreadImpl.cpp: run"]}
{"id": "C113", "title": "A command that is accepted replaces the movement in progress", "statement": "If movj, relj, movl, movv, gcmp or forc returns true, the controller is in the state of that command, whatever it was doing before.", "quantifier": "every command, state in which it is given, and what the robot and solver answer", "why_tests_cant": "the combination of movement in progress, command and configuration", "anchors": ["libraries/YarpPlugins/BasicCartesianControl/ICartesianControlImpl.cpp: movj, relj, movl, movv, gcmp, forc"]}
{"id": "C114", "title": "Joint positions sent to the robot are within the joint limits", "statement": "Every joint position vector that the controller sends to the robot (movj, relj, movl, pose) is within the joint limits read from the robot at the start.", "quantifier": "every command and cycle, limits, poses, robot and solver answers", "why_tests_cant": "over all poses and solver answers", "anchors": ["libraries/YarpPlugins/BasicCartesianControl/ICartesianControlImpl.cpp: movj, pose", "libraries/YarpPlugins/BasicCartesianControl/PeriodicThreadImpl.cpp: handleMovlPosd", "libraries/YarpPlugins/BasicCartesianControl/BasicCartesianControl.cpp: checkJointLimits"]}
{"id": "C115", "title": "stat tells the pose of the tool set last", "statement": "After any commands, with tools set and taken away among them, the pose that stat returns is that of the end of the robot's chain with the joints where the encoders say that they are, followed by the tool set last (none if none has been set).", "quantifier": "every chain, history of commands and tools, encoder readings", "why_tests_cant": "over all histories of tools, chains and joint positions; the controller keeps no record of the tool and the solver rebuilds its chain each time", "anchors": ["libraries/YarpPlugins/BasicCartesianControl/ICartesianControlImpl.cpp: stat, tool", "libraries/YarpPlugins/KdlSolver/ICartesianSolverImpl.cpp: appendLink, restoreOriginalChain, fwdKin"]}
{"id": "C116", "title": "The joint positions sent bring the tool to the pose asked for", "statement": "With the controller attached to the chain solver, the joint positions that movj sends put the tool at the pose asked for (told in the base or in the tool frame), as do those streamed by pose; those sent during movl with direct positions put it on the line from where it was to the target.", "quantifier": "every arm, tool, target, frame and joint positions", "why_tests_cant": "goes through the controller, the representation of poses, the closed-form solver and the choice among its solutions; over all targets", "anchors": ["libraries/YarpPlugins/BasicCartesianControl/ICartesianControlImpl.cpp: movj, pose, movl", "libraries/YarpPlugins/BasicCartesianControl/PeriodicThreadImpl.cpp: handleMovlPosd", "libraries/YarpPlugins/KdlSolver/ICartesianSolverImpl.cpp: invKin"]}
{"id": "C117", "title": "The joint velocities sent move the tool with the velocity commanded", "statement": "With the controller attached to the chain solver, the joint velocities sent for twist move the tool with the velocity asked for, told in the base or in the tool frame; during movl they move it with the velocity of the line at that time, and during movv with the constant velocity asked for, in both cases plus the gain times what separates the tool from where it should be.", "quantifier": "every chain, tool, velocity, frame, joint positions and time", "why_tests_cant": "derivative of the pose of the tool; over all chains and joint positions", "anchors": ["libraries/YarpPlugins/BasicCartesianControl/ICartesianControlImpl.cpp: twist, movl, movv", "libraries/YarpPlugins/BasicCartesianControl/PeriodicThreadImpl.cpp: handleMovlVel, handleMovv", "libraries/YarpPlugins/KdlSolver/ICartesianSolverImpl.cpp: diffInvKin"]}
{"id": "C118", "title": "Putting an earlier tool back restores the earlier behaviour", "statement": "Once a tool has been replaced by the one in use at an earlier time, stat tells the same pose as then for the same joints, and targets that were accepted then are accepted again.", "quantifier": "every chain, history of tools and target", "why_tests_cant": "state left in the solver by an intermediate tool shows only for geometries without a closed-form solution", "anchors": ["libraries/YarpPlugins/BasicCartesianControl/ICartesianControlImpl.cpp: tool", "libraries/YarpPlugins/KdlSolver/ICartesianSolverImpl.cpp: appendLink, restoreOriginalChain", "libraries/YarpPlugins/KdlSolver/ChainIkSolverPos_ST.cpp: updateInternalDataStructures"]}
{"id": "C119", "title": "With the limits of the robot, no position beyond them is sent", "statement": "A controller opened with the chain solver and without limits in its configuration takes the limits of the robot; from then on no joint position that it sends to the robot, by any command or cycle, exceeds them by more than the tolerance of the solver (0.000001 rad).", "quantifier": "every robot, limits, configuration, selection strategy, history of commands, tools and encoder readings", "why_tests_cant": "limits pass through two devices and a change of units; over all histories and targets", "anchors": ["libraries/YarpPlugins/BasicCartesianControl/DeviceDriverImpl.cpp: open", "libraries/YarpPlugins/KdlSolver/DeviceDriverImpl.cpp: open, retrieveJointLimits", "libraries/YarpPlugins/BasicCartesianControl/ICartesianControlImpl.cpp: movj, relj, pose", "libraries/YarpPlugins/BasicCartesianControl/PeriodicThreadImpl.cpp: handleMovlPosd"]}
{"id": "C120", "title": "The pose told is that of the robot described in the configuration file", "statement": "A controller opened with a configuration file tells, for the joint positions in degrees that the encoders give, the pose obtained by following the first matrix, the links in the file (Denavit-Hartenberg or axis and offset) each turned by its joint, the last matrix and the tool set last.", "quantifier": "every configuration with rotary joints, history of commands and tools, encoder readings", "why_tests_cant": "from the text of the file to the pose told; over all files, histories and joint positions", "anchors": ["libraries/YarpPlugins/BasicCartesianControl/DeviceDriverImpl.cpp: open", "libraries/YarpPlugins/BasicCartesianControl/ICartesianControlImpl.cpp: stat, tool", "libraries/YarpPlugins/KdlSolver/DeviceDriverImpl.cpp: open", "libraries/YarpPlugins/KdlSolver/ICartesianSolverImpl.cpp: fwdKin"]}
{"id": "C121", "title": "Using the controller through the network changes nothing", "statement": "From the moment the controller is opened, any sequence of calls made through the client and the server, interleaved with the cycles of the controller, makes it issue the same calls to robot and solver and gives back the same results as the sequence of calls made directly, for all arguments that the protocol can express; in particular the pose that the client is told is the one described in the configuration file, with the tool set last through the client.", "quantifier": "every sequence of calls and arguments, every behaviour of robot and solver", "why_tests_cant": "equivalence of two systems over all sequences of calls; results pass through two conversions whose failure depends on values that the controller can only reach in some states", "anchors": ["libraries/YarpPlugins/CartesianControlClient/ICartesianControlImpl.cpp", "libraries/YarpPlugins/CartesianControlServer/RpcResponder.cpp: respond", "libraries/YarpPlugins/CartesianControlServer/StreamResponder.cpp: onRead", "libraries/YarpPlugins/BasicCartesianControl/ICartesianControlImpl.cpp"]}
{"id": "C122", "title": "No message sent to the server makes the robot exceed its limits", "statement": "With the controller opened with the chain solver and the limits of the robot, no sequence of messages sent to the ports of the server, well formed or not, makes the controller send the robot joint positions that exceed its limits by more than the tolerance of the solver.", "quantifier": "every sequence of messages on every port, every interleaving with the cycles of the controller, robot, limits and configuration", "why_tests_cant": "over all messages, including malformed ones, and all histories", "anchors": ["libraries/YarpPlugins/CartesianControlServer/RpcResponder.cpp: respond", "libraries/YarpPlugins/CartesianControlServer/StreamResponder.cpp: onRead", "libraries/YarpPlugins/BasicCartesianControl/DeviceDriverImpl.cpp: open", "libraries/YarpPlugins/BasicCartesianControl/ICartesianControlImpl.cpp: movj, relj, pose", "libraries/YarpPlugins/BasicCartesianControl/PeriodicThreadImpl.cpp: handleMovlPosd"]}
{"id": "C123", "title": "The transform port talks about the same poses in its own representation", "statement": "A pose sent to the transform port in the representation chosen (coordinates, orientation system, units) is the pose that the controller is asked for, and movj puts the tool there; the state asked for at this port tells the pose of the tool described in the configuration file, in that representation.", "quantifier": "every representation, pose, arm, command and history", "why_tests_cant": "goes through the change of representation, the server, the controller and the solver; over all poses", "anchors": ["libraries/YarpPlugins/CartesianControlServer/RpcResponder.cpp: transformIncomingData, transformOutgoingData, handleConsumerCmdMsg, handleStatMsg", "libraries/YarpPlugins/BasicCartesianControl/ICartesianControlImpl.cpp: movj, stat", "libraries/YarpPlugins/KdlSolver/ICartesianSolverImpl.cpp: fwdKin, invKin"]}
{"id": "C124", "title": "The box reported by the workspace search is a reachable box around the initial position", "statement": "find-reachable-cuboid, given an initial position and a step, reports a box that contains the initial position and lies inside the outer box, which extends along each axis exactly as far as consecutive steps can be reached; every position of the reported box that is a whole number of steps away can be reached.", "quantifier": "every reachable region (any predicate on positions), limits, step and initial position", "why_tests_cant": "a test has one robot; the region is arbitrary and the search is cubic in the number of samples", "anchors": ["scripts/python/find-reachable-cuboid.py: find_limits, find_max_cuboid, main loop"]}
{"id": "C125", "title": "The box reported by the workspace search is the largest reachable one around the initial position", "statement": "Among the boxes inside the outer box that contain the initial position and whose sampled positions can all be reached, none has more samples than the box reported by find-reachable-cuboid.", "quantifier": "every reachable region, step and initial position; every competing box", "why_tests_cant": "maximality over all boxes and all regions", "anchors": ["scripts/python/find-reachable-cuboid.py: main loop"]}
{"id": "C126", "title": "The closed-form inverse kinematics answers angles of at most half a turn", "statement": "Every candidate of a closed-form problem has one value per joint, and the values of rotary joints lie between -pi and pi, for reachable and unreachable poses alike; so invKin with the closed-form solver always answers values between -180 and 180 degrees for rotary joints, whatever tools were appended or poses asked before.", "quantifier": "every arm the library can solve, pose, reference frame, guess, selection strategy, limits and history of calls", "why_tests_cant": "over all arms and all poses, including those out of reach", "anchors": ["libraries/ScrewTheoryLib/PadenKahanSubproblems.cpp: solve", "libraries/ScrewTheoryLib/PardosGotorSubproblems.cpp: solve", "libraries/ScrewTheoryLib/ScrewTheoryIkProblem.cpp: solve", "libraries/YarpPlugins/KdlSolver/ChainIkSolverPos_ST.cpp: CartToJnt", "libraries/YarpPlugins/KdlSolver/ICartesianSolverImpl.cpp: invKin"]}
{"id": "C127", "title": "A pose reached within the limits of the joints is answered by the inverse kinematics", "statement": "If joint values within the limits given to the solver put the tool at a pose, invKin with the closed-form solver answers for that pose (with these or other values within the limits), wherever the limits of a rotary joint are.", "quantifier": "every arm, limits, joint values within them and guess", "why_tests_cant": "over all limits, also beyond half a turn", "anchors": ["libraries/YarpPlugins/KdlSolver/ChainIkSolverPos_ST.cpp: CartToJnt", "libraries/YarpPlugins/KdlSolver/ICartesianSolverImpl.cpp: invKin", "libraries/ScrewTheoryLib/ConfigurationSelector.cpp: configure, validate"]}
{"id": "C128", "title": "The trajectory example keeps the tool on the straight line", "statement": "The joint positions that exampleScrewTheoryTrajectory sends in each cycle put the tool of the arm at the pose of the straight line from the initial pose to the goal (0.15, 0.1 and 0.1 metres further) that corresponds to that time, with the initial orientation.", "quantifier": "every initial joint positions, velocity, duration, times of the cycles and readings of the encoders", "why_tests_cant": "composes the trajectory, the closed-form inverse kinematics and the selection; over all initial postures and times", "anchors": ["examples/cpp/exampleScrewTheoryTrajectory/exampleScrewTheoryTrajectory.cpp: main", "examples/cpp/exampleScrewTheoryTrajectory/TrajectoryThread.cpp: run"]}
{"id": "C129", "title": "The trajectory example respects the limits of the joints", "statement": "No joint position that exampleScrewTheoryTrajectory sends is beyond the limits that the robot tells.", "quantifier": "every limits, initial joint positions, velocity, duration and times of the cycles", "why_tests_cant": "over all limits and postures; a robot with wide limits does not show it", "anchors": ["examples/cpp/exampleScrewTheoryTrajectory/exampleScrewTheoryTrajectory.cpp: main", "examples/cpp/exampleScrewTheoryTrajectory/TrajectoryThread.cpp: run", "libraries/ScrewTheoryLib/ConfigurationSelector.cpp: configure, validate"]}
{"id": "C130", "title": "The trajectory example ends at the goal", "statement": "When exampleScrewTheoryTrajectory ends, after the duration given, the pose asked for is the goal of the line, and in the last cycles before it is near the goal.", "quantifier": "every velocity, duration and initial joint positions", "why_tests_cant": "over all combinations of velocity and duration", "anchors": ["examples/cpp/exampleScrewTheoryTrajectory/exampleScrewTheoryTrajectory.cpp: main"]}
{"id": "C131", "title": "The trajectory example never asks for more than the maximum velocity", "statement": "Between any two cycles, the pose that exampleScrewTheoryTrajectory asks for moves at most the maximum velocity given times the time between them, without turning.", "quantifier": "every velocity, duration, initial joint positions and pair of times", "why_tests_cant": "over all pairs of times", "anchors": ["examples/cpp/exampleScrewTheoryTrajectory/exampleScrewTheoryTrajectory.cpp: main", "examples/cpp/exampleScrewTheoryTrajectory/TrajectoryThread.cpp: run"]}
{"id": "C132", "title": "The trajectory example does not read beyond its vectors", "statement": "Whatever the number of axes of the robot, exampleScrewTheoryTrajectory either ends with a message or runs all its cycles with every vector as long as it is read.", "quantifier": "every number of axes, limits, readings and times", "why_tests_cant": "absence of undefined behaviour over all robots", "anchors": ["examples/cpp/exampleScrewTheoryTrajectory/exampleScrewTheoryTrajectory.cpp: main", "examples/cpp/exampleScrewTheoryTrajectory/TrajectoryThread.cpp: run"]}
{"id": "C133", "title": "The trajectory example moves a robot that is within its limits", "statement": "If the joint positions of the robot are within its limits, exampleScrewTheoryTrajectory sends joint positions in each cycle in which the robot tells its own.", "quantifier": "every limits, initial joint positions within them and times of the cycles", "why_tests_cant": "over all limits", "anchors": ["examples/cpp/exampleScrewTheoryTrajectory/exampleScrewTheoryTrajectory.cpp: main", "examples/cpp/exampleScrewTheoryTrajectory/TrajectoryThread.cpp: run", "libraries/ScrewTheoryLib/ConfigurationSelector.cpp: configure, validate"]}
{"id": "C134", "title": "The trajectory example does not make the robot jump when it begins", "statement": "The joint positions that exampleScrewTheoryTrajectory sends at the initial instant are those that the robot has.", "quantifier": "every initial joint positions within the limits", "why_tests_cant": "over all postures, including those in which two solutions meet", "anchors": ["examples/cpp/exampleScrewTheoryTrajectory/exampleScrewTheoryTrajectory.cpp: main", "examples/cpp/exampleScrewTheoryTrajectory/TrajectoryThread.cpp: run", "libraries/ScrewTheoryLib/PadenKahanSubproblems.cpp: PadenKahanThree::solve"]}
{"id": "C135", "title": "The torques against gravity are those that gravity needs", "statement": "The torques that the solver computes for joint positions, without movement, are the derivatives of the potential energy of the bodies of its links under gravity: for every movement of the joints their work is the energy that the bodies gain.", "quantifier": "every chain, bodies on its links, gravity, joint positions and directions of movement", "why_tests_cant": "over all chains and postures; tests compare a few numbers with others computed by hand", "anchors": ["libraries/YarpPlugins/KdlSolver/ICartesianSolverImpl.cpp: invDyn(q, t)"]}
{"id": "C136", "title": "At rest the torques balance gravity and a force on the tool", "statement": "The torques that the solver computes at rest with an external force on the tool, told in the frame of the base or of the tool, balance it and gravity: for every movement of the joints the work of the torques plus that of the force is the energy that the bodies gain.", "quantifier": "every chain, bodies on its links, gravity, joint positions, force and moment, frame and direction of movement", "why_tests_cant": "over all chains, postures and forces; signs and frames are easily exchanged without a test that shows it", "anchors": ["libraries/YarpPlugins/KdlSolver/ICartesianSolverImpl.cpp: invDyn(q, qdot, qdotdot, ftip, t, frame)"]}
{"id": "C137", "title": "The torques in motion are those that the motion needs", "statement": "The torques that the solver computes for joint positions, velocities and accelerations are the ones, and the only ones, that satisfy d'Alembert's principle for every motion of the joints that goes through them: for every virtual movement the work of the torques and of the force on the tool is that of the accelerations of the bodies without gravity and of the rates of their angular momenta.", "quantifier": "every chain, bodies, gravity, motion of the joints and time, force on the tool and virtual movement", "why_tests_cant": "over all motions: it relates a recursive algorithm to derivatives of the movement of each body", "anchors": ["libraries/YarpPlugins/KdlSolver/ICartesianSolverImpl.cpp: invDyn(q, qdot, qdotdot, ftip, t, frame)"]}
{"id": "C138", "title": "Gravity compensation holds the robot that the configuration file describes", "statement": "A controller opened from a configuration file and under gravity compensation sends, in every cycle that sends torques, those that hold the links with the masses and centres of mass of the file, under the gravity of the file, at the joint positions that the robot tells, whatever it has been asked before and whatever tools are changed.", "quantifier": "every configuration file, robot, past and future commands, joint positions and directions of movement", "why_tests_cant": "composes the reading of the file, the solver, its tools and the control loop, over all histories", "anchors": ["libraries/YarpPlugins/BasicCartesianControl/PeriodicThreadImpl.cpp: handleGcmp", "libraries/YarpPlugins/KdlSolver/DeviceDriverImpl.cpp: open", "libraries/YarpPlugins/KdlSolver/ICartesianSolverImpl.cpp: invDyn(q, t)"]}
{"id": "C139", "title": "Force control exerts the force asked for", "statement": "Under force control, every torque command is the one with which the robot goes through the joint positions, velocities and accelerations that it told while its tool in use exerts the force and moment asked for, in the frame of the base.", "quantifier": "every chain, bodies on its links, past commands, force and moment, and readings of the robot", "why_tests_cant": "composes the control loop and the solver, over all histories and motions", "anchors": ["libraries/YarpPlugins/BasicCartesianControl/PeriodicThreadImpl.cpp: handleForc", "libraries/YarpPlugins/BasicCartesianControl/ICartesianControlImpl.cpp: forc", "libraries/YarpPlugins/KdlSolver/ICartesianSolverImpl.cpp: invDyn(q, qdot, qdotdot, ftip, t, frame)"]}
{"id": "C140", "title": "A tool that is off its line comes back to it", "statement": "While the controller moves the tool along a line with velocity commands, or at constant velocity, what the tool is away from where it should be shrinks by a fixed factor from one cycle to the next (1 - gain when the cycles are on time), down to what the movement changes within one cycle and what the robot does not do as told.", "quantifier": "every chain, target or velocity, duration, gain, period, times of the cycles, initial distance and deviation of the robot", "why_tests_cant": "over all sequences of cycles; a test sees one run, not the factor nor the bound", "anchors": ["libraries/YarpPlugins/BasicCartesianControl/PeriodicThreadImpl.cpp: handleMovlVel, handleMovv", "libraries/YarpPlugins/BasicCartesianControl/ICartesianControlImpl.cpp: movl, movv"]}
{"id": "C141", "title": "Every gain that is accepted keeps the tool on its line", "statement": "Whatever gain the controller has accepted, with a robot that does exactly as told and with cycles on time, the tool is not further from where it should be in a cycle than in the one before.", "quantifier": "every gain that setParameter accepts", "why_tests_cant": "over all accepted gains", "anchors": ["libraries/YarpPlugins/BasicCartesianControl/ICartesianControlImpl.cpp: setParameter", "libraries/YarpPlugins/BasicCartesianControl/PeriodicThreadImpl.cpp: handleMovlVel, handleMovv"]}
{"id": "C142", "title": "The torques of a robot with several limbs hold the robot that the configuration file describes", "statement": "The torques against gravity that the solver for robots with several limbs computes hold the links with the masses and centres of mass of its configuration file, under the gravity of the file: for every movement of the joints of all the limbs their work is the energy that the links gain.", "quantifier": "every configuration file, joint positions and directions of movement", "why_tests_cant": "over all trees of limbs; the torque of a joint collects the weight of every limb that hangs from it", "anchors": ["libraries/YarpPlugins/KdlTreeSolver/DeviceDriverImpl.cpp: open", "libraries/YarpPlugins/KdlTreeSolver/ICartesianSolverImpl.cpp: invDyn(q, t)"]}
{"id": "C143", "title": "The torques of a robot with several limbs in motion are those that the motion needs", "statement": "The torques that the solver for robots with several limbs computes for joint positions, velocities and accelerations and a force on each tool are the ones, and the only ones, that satisfy d'Alembert's principle for every motion of the joints that goes through them; tools that are merged each get the force that is given once, told in the frame of the base or in their own.", "quantifier": "every configuration file, motion of the joints and time, forces on the tools, frame and virtual movement", "why_tests_cant": "over all trees of limbs and motions: it relates a recursive algorithm to derivatives of the movement of each link", "anchors": ["libraries/YarpPlugins/KdlTreeSolver/DeviceDriverImpl.cpp: open", "libraries/YarpPlugins/KdlTreeSolver/ICartesianSolverImpl.cpp: invDyn(q, qdot, qdotdot, ftip, t, frame)"]}
{"id": "C144", "title": "A query made while the tool is being changed is answered with the tool before or after the change", "statement": "While other threads add tools to the chain solver or restore the original chain, each query that one thread makes (pose, inverse kinematics, joint velocities, torques) is answered as if it had been made at one instant between its beginning and its end, with the tool of that instant.", "quantifier": "every chain, sequences of changes of the other threads, query, and interleaving of the threads", "why_tests_cant": "a race shows in one interleaving out of many, and tests have one thread", "anchors": ["libraries/YarpPlugins/KdlSolver/ICartesianSolverImpl.cpp: appendLink, restoreOriginalChain, fwdKin, invKin, diffInvKin, invDyn"]}
{"id": "C145", "title": "Changes of the tool made by several threads take effect one after the other", "statement": "When several threads add tools to the chain solver and restore the original chain, once all of them are done the chain is the one that the same changes give made one after the other in some order that respects that of each thread.", "quantifier": "every chain, number of threads, changes of each, and interleaving", "why_tests_cant": "over all interleavings", "anchors": ["libraries/YarpPlugins/KdlSolver/ICartesianSolverImpl.cpp: appendLink, restoreOriginalChain"]}
{"id": "C146", "title": "The ASIBOT solver keeps the tool in one piece when several threads use it", "statement": "While other threads change the tool of the ASIBOT solver, a query is answered with the tool of one instant between its beginning and its end, and of the tools that several threads add none is lost.", "quantifier": "every arm, changes of the tool, query, and interleaving of the threads", "why_tests_cant": "a race shows in one interleaving out of many, and tests have one thread", "anchors": ["libraries/YarpPlugins/AsibotSolver/AsibotSolver.cpp: getTcpFrame, setTcpFrame", "libraries/YarpPlugins/AsibotSolver/ICartesianSolverImpl.cpp: appendLink, restoreOriginalChain, fwdKin, invKin"]}
{"id": "C147", "title": "Once a key has stopped the robot no pose is streamed", "statement": "When the keyboard controller streams poses and a key stops the robot, no pose is sent to the controller after the command that stops it, until a key that moves along or around a Cartesian axis is pressed.", "quantifier": "every configuration, sequence of keys, answer of the controller, and interleaving of the keys with the thread that streams", "why_tests_cant": "a race shows in one interleaving out of many; the program has no tests, and a unit test has no second thread", "anchors": ["programs/keyboardController/KeyboardController.cpp: issueStop", "programs/keyboardController/LinearTrajectoryThread.cpp: run"]}
{"id": "C148", "title": "The keyboard controller streams poses of one instant and in the frame of the controller, whatever keys are pressed meanwhile", "statement": "Whatever keys are pressed while the thread of the keyboard controller streams poses, each pose sent is one that the thread would have sent had it run at one instant, it is told in the reference frame that the controller was last asked to use, and nothing undefined happens.", "quantifier": "every configuration, sequence of keys, answer of the controller, and interleaving of the keys with the thread that streams", "why_tests_cant": "a race shows in one interleaving out of many; the program has no tests, and a unit test has no second thread", "anchors": ["programs/keyboardController/KeyboardController.cpp: incrementOrDecrementCartesianCommand, toggleReferenceFrame", "programs/keyboardController/LinearTrajectoryThread.cpp: configure, run"]}
{"id": "C149", "title": "A command given at rest takes effect as a whole", "statement": "A command given to the Cartesian controller while no movement is in course has the same effects, and returns the same, as if the control thread did not run until the command is done.", "quantifier": "every configuration, command, answer of the robot and of the solver, and interleaving with the control thread", "why_tests_cant": "depends on thread interleavings", "anchors": ["libraries/YarpPlugins/BasicCartesianControl/ICartesianControlImpl.cpp: movj, relj, movl, movv, gcmp, forc, setParameter", "libraries/YarpPlugins/BasicCartesianControl/PeriodicThreadImpl.cpp: run, handleMovj"]}
{"id": "C150", "title": "A movement that is accepted replaces the one in course", "statement": "When a movement command returns true while another movement is in course, the controller then performs the new movement, and nothing of the old one is used any more.", "quantifier": "every configuration, movement in course, new movement, answer of the robot and of the solver, and interleaving with the control thread", "why_tests_cant": "depends on thread interleavings", "anchors": ["libraries/YarpPlugins/BasicCartesianControl/ICartesianControlImpl.cpp: movl, movv, gcmp, forc", "libraries/YarpPlugins/BasicCartesianControl/PeriodicThreadImpl.cpp: run, handleMovj, handleMovlVel, handleMovlPosd, handleMovv"]}
{"id": "C151", "title": "The matrix printed by kdl-from-csv is the pose at rest of the chain in the files", "statement": "Given a file of lengths and a Denavit-Hartenberg table whose cells are expressions on joints and on those lengths, kdl-from-csv prints the homogeneous matrix of the product of the links of the table, with each joint at zero and each length, in metres, as in the file of lengths.", "quantifier": "every file of lengths and table with well-formed cells (joints q1 to q27, lengths named by a letter and a number), and order in which Python visits its dictionaries", "why_tests_cant": "the script has no tests; names are replaced as text one after the other, so the outcome depends on which names there are and on their order", "anchors": ["scripts/python/kdl-from-csv.py: 27-80", "scripts/python/roboview-from-csv.py: 16-66"]}
{"id": "C152", "title": "The matrix printed by kdl-from-csv can be used as a frame of a configuration", "statement": "Whenever kdl-from-csv prints a matrix, the sixteen numbers in brackets are decimals without needless characters, and read as H0 or HN of the configuration of a solver they are the entries of a rigid motion, rounded to 15 decimals.", "quantifier": "every pair of files for which the script prints a matrix", "why_tests_cant": "a test compares some outputs; the removal of zeros, points and signs is right or wrong depending on the digits", "anchors": ["scripts/python/kdl-from-csv.py: 84-94", "libraries/YarpPlugins/KdlSolver/DeviceDriverImpl.cpp: getMatrixFromProperties"]}
{"id": "C153", "title": "The state told to a client was that of the controller not long before", "statement": "Whatever happens to the messages of the state stream (lost, late, overtaken), stat on the client of a connected server gives a state that the controller had at some instant, that of the call if there is no stream, and otherwise not earlier than the timeout plus the time that the slowest message took.", "quantifier": "every evolution of the controller, loss and order of arrival of the messages, and times of the calls", "why_tests_cant": "over all losses, delays and orders of messages of an unreliable transport", "anchors": ["libraries/YarpPlugins/CartesianControlServer/PeriodicThreadImpl.cpp: run", "libraries/YarpPlugins/CartesianControlClient/FkStreamResponder.cpp", "libraries/YarpPlugins/CartesianControlClient/ICartesianControlImpl.cpp: stat", "libraries/YarpPlugins/CartesianControlClient/DeviceDriverImpl.cpp: open"]}
{"id": "C154", "title": "The states that a client is told do not go back in time", "statement": "Of two calls to stat made one after the other on a client, the second never tells a state of the controller earlier than the one that the first told.", "quantifier": "every evolution of the controller, loss and order of arrival of the messages, and times of the calls", "why_tests_cant": "over all losses, delays and orders of messages of an unreliable transport", "anchors": ["libraries/YarpPlugins/CartesianControlClient/FkStreamResponder.cpp", "libraries/YarpPlugins/CartesianControlClient/ICartesianControlImpl.cpp: stat", "libraries/YarpPlugins/CartesianControlClient/DeviceDriverImpl.cpp: open"]}
{"id": "C155", "title": "Streamed commands are carried out as sent, whatever the network does", "statement": "Whatever happens to the messages of the streamed commands (pose, twist, wrench), the controller does and answers what it would if it were called directly, with the streamed commands that arrive when they arrive; each one sent is carried out at most once and in the order in which they were sent, so that the last one sent is the one that remains in force.", "quantifier": "every sequence of calls on the client, cycles of the controller, and losses and delays of messages", "why_tests_cant": "over all losses, delays and orders of messages of an unreliable transport", "anchors": ["libraries/YarpPlugins/CartesianControlClient/ICartesianControlImpl.cpp: pose, twist, wrench, handleStreamingConsumerCmd", "libraries/YarpPlugins/CartesianControlClient/DeviceDriverImpl.cpp: open", "libraries/YarpPlugins/CartesianControlServer/StreamResponder.cpp: onRead"]}
{"id": "C156", "title": "No streamed command sent before a stop moves the robot after it", "statement": "Once a stop asked for through the client has been answered, no streamed command that was sent before, however late it arrives, makes the robot move.", "quantifier": "every sequence of calls before and after, and losses and delays of messages", "why_tests_cant": "a late message shows in few of the possible orders of arrival, and the network of a test delivers at once", "anchors": ["libraries/YarpPlugins/CartesianControlClient/ICartesianControlImpl.cpp: stopControl, pose, twist, wrench", "libraries/YarpPlugins/CartesianControlServer/StreamResponder.cpp: onRead", "libraries/YarpPlugins/BasicCartesianControl/ICartesianControlImpl.cpp: stopControl, pose, twist, wrench"]}
{"id": "C157", "title": "The fail-fast check covers the trajectory up to its end", "statement": "A trajectory that the fail-fast check accepts has an inverse kinematics solution within the joint limits at samples that begin with it, are half a period apart, and include its end; and the check comes to an end whatever the period and the duration.", "quantifier": "every period, duration, trajectory, solver and set of joint limits, on IEEE doubles", "why_tests_cant": "which samples are taken depends on the rounding of a sum of hundreds of terms, different for each period and duration", "anchors": ["libraries/YarpPlugins/BasicCartesianControl/BasicCartesianControl.cpp: doFailFastChecks", "libraries/YarpPlugins/BasicCartesianControl/DeviceDriverImpl.cpp: open"]}
{"id": "C158", "title": "Rounding does not make a joint move exceed the reference speeds", "statement": "On IEEE doubles, the speeds of a movj are finite, at most the reference speeds, zero for joints that do not move, and take all joints to their targets in the same time up to rounding.", "quantifier": "every number of joints, reference speeds, positions and targets of the magnitudes of a robot", "why_tests_cant": "the result depends on the rounding of each quotient; a test compares with a tolerance that hides it", "anchors": ["libraries/YarpPlugins/BasicCartesianControl/BasicCartesianControl.cpp: computeIsocronousSpeeds"]}
{"id": "C159", "title": "Only numbers within the velocity limits are sent to the motors by a streamed twist", "statement": "Whatever twist is streamed, including one with a component that is not a number, the velocities sent to the motors are numbers within the velocity limits of the joints.", "quantifier": "every twist, joint position, solver answer and set of limits, on IEEE doubles with infinities and NaN", "why_tests_cant": "quantified over all doubles, including those that no test sends; the comparison with NaN is false in both directions", "anchors": ["libraries/YarpPlugins/BasicCartesianControl/ICartesianControlImpl.cpp: twist", "libraries/YarpPlugins/BasicCartesianControl/BasicCartesianControl.cpp: checkJointLimits, checkJointVelocities"]}
{"id": "C160", "title": "What the ASIBOT solver answers are numbers within the limits of the joints, whatever it is given", "statement": "Whatever target is given to the inverse kinematics of the ASIBOT solver, including one that is not made of numbers, and however the C library rounds, the answer is either a failure or five joint angles that are numbers within the limits of the joints (up to the tolerance of a thousandth of a degree); and choosing one among the configurations is not undefined behaviour, whatever the initial guess.", "quantifier": "every target, guess, link lengths, joint limits and C library, on IEEE doubles with infinities and NaN", "why_tests_cant": "quantified over all doubles, including those that no test sends; the comparison with NaN is false in both directions", "anchors": ["libraries/YarpPlugins/AsibotSolver/ICartesianSolverImpl.cpp: invKin", "libraries/YarpPlugins/AsibotSolver/AsibotConfiguration.cpp: configure, checkJointsInLimits, normalizeAngle", "libraries/YarpPlugins/AsibotSolver/AsibotConfigurationLeastOverallAngularDisplacement.cpp: findOptimalConfiguration"]}
{"id": "C161", "title": "Rounding does not put a target out of reach of ASIBOT", "statement": "The closed form of the inverse kinematics of ASIBOT, on IEEE doubles, solves every target whose wrist the arm can reach: it is not refused for its distance and no angle is the result of the square root of a negative number or of a division by zero.", "quantifier": "every target within reach, link lengths of the magnitudes of a robot, and C library right to 1e-12", "why_tests_cant": "the result at the border of the workspace depends on the rounding of each operation; a test has a few targets", "anchors": ["libraries/YarpPlugins/AsibotSolver/ICartesianSolverImpl.cpp: invKin"]}
{"id": "C162", "title": "What the screw theory solver answers are numbers within the limits, whatever the solutions", "statement": "Call after call on the same screw theory position solver, whatever the solutions of the problem (including NaN and infinities) and the guesses, each answer is either a failure or joint values that are numbers within the limits, up to the tolerance of a millionth; with the walking selector, a walking posture as well; and no behaviour is undefined as long as solutions and guesses have the right sizes.", "quantifier": "every sequence of calls, sets of solutions, guesses and limits, on IEEE doubles with infinities and NaN", "why_tests_cant": "quantified over all doubles and histories; NaN compares false in both directions, and a set with NaN keys is ordered only in some cases", "anchors": ["libraries/ScrewTheoryLib/ConfigurationSelector.cpp", "libraries/ScrewTheoryLib/ConfigurationSelectorLeastOverallAngularDisplacement.cpp", "libraries/ScrewTheoryLib/ConfigurationSelectorHumanoidGait.cpp", "libraries/YarpPlugins/KdlSolver/ChainIkSolverPos_ST.cpp: CartToJnt"]}
{"id": "C163", "title": "Rounding does not change which solution of the screw theory solver is taken", "statement": "The first call that has a solution within the limits answers one of them, and no other solution within the limits is nearer to the guess, measured by the sum of the displacements of the joints as real numbers.", "quantifier": "every set of solutions, guess and limits, on IEEE doubles", "why_tests_cant": "the order depends on the rounding of each sum; a test compares solutions that are far from one another", "anchors": ["libraries/ScrewTheoryLib/ConfigurationSelectorLeastOverallAngularDisplacement.cpp", "libraries/YarpPlugins/KdlSolver/ChainIkSolverPos_ST.cpp: CartToJnt"]}
{"id": "C164", "title": "A small error in a target moves the answer of two translations only a little", "statement": "If the target of PardosGotorTwo is off the plane of its two axes by a small distance (a tolerance of the caller, a rounding error), the magnitudes it returns bring the point to within a comparable distance of the target.", "quantifier": "every pair of non-parallel axes, point, target and distance", "why_tests_cant": "the sign of the answer is chosen by a comparison that is an equality for every target in the plane, so that a test with exact numbers passes whatever happens beside the plane", "anchors": ["libraries/ScrewTheoryLib/PardosGotorSubproblems.cpp: PardosGotorTwo::solve"]}
{"id": "C165", "title": "Only joint positions that are numbers within the limits are sent, whatever pose is asked for", "statement": "Whatever pose movj is given or is streamed with pose, including one with a component that is not a number, and whatever line movl follows in position direct mode, the joint positions sent to the robot are numbers within the joint limits, and the speeds that movj sets are numbers.", "quantifier": "every pose, reading of the encoders and set of limits, on IEEE doubles with infinities and NaN", "why_tests_cant": "quantified over all doubles; the check of the controller looks at where the joints are, not at where they are sent", "anchors": ["libraries/YarpPlugins/BasicCartesianControl/ICartesianControlImpl.cpp: movj, pose", "libraries/YarpPlugins/BasicCartesianControl/PeriodicThreadImpl.cpp: handleMovlPosd", "libraries/YarpPlugins/BasicCartesianControl/BasicCartesianControl.cpp: checkJointLimits, computeIsocronousSpeeds", "libraries/YarpPlugins/AsibotSolver/ICartesianSolverImpl.cpp: invKin"]}
{"id": "C166", "title": "A target out of reach is approached as far as one joint can", "statement": "When no motion of its joint meets the target, a subproblem of one joint answers the motion that comes nearest: the least distance to the target for PadenKahanOne and PardosGotorOne, the least difference from the wanted distance for PadenKahanThree and PardosGotorThree (the solver of the controller carries such answers out with a warning).", "quantifier": "every axis, point and target", "why_tests_cant": "the answer is compared with the continuum of all other motions of the joint", "anchors": ["libraries/ScrewTheoryLib/PadenKahanSubproblems.cpp: PadenKahanOne::solve, PadenKahanThree::solve", "libraries/ScrewTheoryLib/PardosGotorSubproblems.cpp: PardosGotorOne::solve, PardosGotorThree::solve", "libraries/YarpPlugins/KdlSolver/ChainIkSolverPos_ST.cpp: CartToJnt", "libraries/YarpPlugins/KdlSolver/ICartesianSolverImpl.cpp: invKin"]}
{"id": "C167", "title": "A target missed by a rounding error is still reported reachable", "statement": "A subproblem of one joint reports its target reachable whenever some motion of the joint meets it up to the tolerance of the library (1e-6 in length for PadenKahanOne; 1e-6 in the square of the distance for PardosGotorThree, and in that of the distance over twice the product of the distances from the axis for PadenKahanThree), and the last two only then.", "quantifier": "every axis, point and target (for PadenKahanThree: neither point on the axis)", "why_tests_cant": "the flag is compared with the existence of a motion among a continuum; a test knows a few targets that are exact", "anchors": ["libraries/ScrewTheoryLib/PadenKahanSubproblems.cpp: PadenKahanOne::solve, PadenKahanThree::solve", "libraries/ScrewTheoryLib/PardosGotorSubproblems.cpp: PardosGotorThree::solve"]}
{"id": "C168", "title": "A target out of reach is approached as far as two joints can", "statement": "When no motion of its two joints meets the target, a subproblem of two rotations (PadenKahanTwo, PardosGotorFour) answers the posture that comes nearest to the target (the solver of the controller carries such answers out with a warning).", "quantifier": "every pair of axes, point and target (for PardosGotorFour: a target in the plane of motion)", "why_tests_cant": "the answer is compared with the continuum of all other postures", "anchors": ["libraries/ScrewTheoryLib/PadenKahanSubproblems.cpp: PadenKahanTwo::solve", "libraries/ScrewTheoryLib/PardosGotorSubproblems.cpp: PardosGotorFour::solve", "libraries/YarpPlugins/KdlSolver/ChainIkSolverPos_ST.cpp: CartToJnt", "libraries/YarpPlugins/KdlSolver/ICartesianSolverImpl.cpp: invKin"]}
{"id": "C169", "title": "Parameters stay usable whatever they are set to", "statement": "Whatever calls of setParameter are made, in any order and with any doubles, each is refused or leaves the parameter with the value given (its whole part for the integer ones), the behaviour is defined, and afterwards the gain is a number that is not negative and the trajectory duration is a positive number.", "quantifier": "every history of calls, every key and every double, infinities and NaN included", "why_tests_cant": "a test sets a few values; the values that break the parameters are not numbers and pass every comparison", "anchors": ["libraries/YarpPlugins/BasicCartesianControl/ICartesianControlImpl.cpp: setParameter, setParameters"]}
{"id": "C170", "title": "A line begins where the tool is", "statement": "With every trajectory duration that setParameter accepts, the first pose that movl asks for is that of the tool, so that the first cycle in position direct mode does not jump.", "quantifier": "every accepted duration, every path, on doubles with rounding", "why_tests_cant": "the position at time zero goes through divisions and products that overflow, underflow or give NaN for some durations and lengths", "anchors": ["libraries/YarpPlugins/BasicCartesianControl/ICartesianControlImpl.cpp: movl, setParameter", "libraries/YarpPlugins/BasicCartesianControl/PeriodicThreadImpl.cpp: handleMovlPosd"]}
{"id": "C171", "title": "The cycles of movl and movv send only velocities within the limits", "statement": "The velocities that a control cycle of movl or movv sends to the motors are numbers within the velocity limits of their joints, whatever the solver answers and whatever the accepted parameters are.", "quantifier": "every solver, trajectory, time, encoder reading and accepted parameter, on doubles", "why_tests_cant": "the check of the velocities compares doubles, and the ones it lets through by mistake are those that no comparison rejects", "anchors": ["libraries/YarpPlugins/BasicCartesianControl/PeriodicThreadImpl.cpp: run, handleMovlVel, handleMovv", "libraries/YarpPlugins/BasicCartesianControl/BasicCartesianControl.cpp: checkJointVelocities", "libraries/YarpPlugins/BasicCartesianControl/ICartesianControlImpl.cpp: setParameter"]}
