# Design of the verification of kinematics-dynamics

Target: roboticslab-uc3m/kinematics-dynamics, pinned source in `/repo` (read as text, never built).

## Approach

* One Rocq (Coq 8.16.1) development under `rocq/theories`, logical name `Verif`.
* Model files transcribe the C++ function by function; each definition cites file and lines and says where it simplifies.
  `*Spec.v` files hold the small vocabulary in which claims are stated, `*Facts*.v` the lemmas, `*Examples*.v` concrete runs and
  counterexamples. `Properties_*.v` files hold only the property theorems, each closed by `exact <lemma>` and followed by
  `Print Assumptions`, and next to them `Example`s that meet their hypotheses.
* `double` is modelled as the real numbers `R` of the standard library, except in the files named below with `F64.v`, where it is IEEE
  binary64 with rounding, infinities and NaN. Elsewhere rounding is therefore NOT modelled; comparisons with
  tolerances are modelled exactly as written. Division by zero, NaN, out-of-range reads, null or uninitialised pointers,
  out-of-range conversions and endless loops are distinct outcomes wherever the code can reach them.
* The stateful devices are programs over calls to their environment (robot, solver, clock, controller, sensors, ports). Every answer
  to every call is possible, so a theorem about all executions covers all behaviours of the environment.
* A property that is false of the faithful model is kept, with a theorem `..._refuted` that gives a concrete witness, plus a guarded
  form `..._partial` when one is provable. In `MANIFEST.json` such a property has the status `partial`.
* Theorems are tested against wrong programs: `seeded/LOG.jsonl` records realistic bugs put into a copy of the model, the theorems
  that fail because of each, and the theorems that were tightened because they did not.

## What is modelled, and what is not

| code in /repo | model | left out |
|---------------|-------|----------|
| `ScrewTheoryLib/MatrixExponential`, `ProductOfExponentials` | `Screw.v` | stream output |
| `ScrewTheoryLib/PadenKahanSubproblems`, `PardosGotorSubproblems`, `ScrewTheoryTools.hpp` | `Subproblems.v`, `Trig.v` | signed zeros of `atan2` |
| `ScrewTheoryLib/ScrewTheoryIkProblem` | `IkProblem.v` | nothing of `solve` and `create`; steps are parameters |
| `ScrewTheoryLib/ScrewTheoryIkProblemBuilder` | `Builder.v` (`BuilderRun.v` repeats it on rationals, to run it) | `KDL::Random` is an arbitrary draw |
| `ScrewTheoryLib/ConfigurationSelector*` | `Selector.v` | lifetime of the caller's joint arrays |
| `KinematicRepresentationLib`, `KdlVectorConverterLib` | `KinRep.v` | log messages; enumerators outside of the declared ones |
| `YarpTinyMathLib` | `TinyMath.v` | printing |
| `YarpPlugins/ICartesianControl.h`, `ICartesianSolver.h` (vocabularies) | `Vocab.v` | |
| `YarpPlugins/BasicCartesianControl` | `Bcc.v` | logging, mutexes (C35, C149 and C150 have an interleaving model of their own), option parsing other than limits |
| `BasicCartesianControl` attached to `KdlSolver` (C115–C120) | `Sys.v` | the velocity solver of KDL (the dynamics one is in `Dyn.v`, C138), draws of the search for a closed-form solution (all of them allowed) |
| the controller behind `CartesianControlServer`, used by `CartesianControlClient` or by any messages (C121–C123) | `Net.v` | loss and reordering of messages, the state sent periodically: see the next row |
| the same over an unreliable network: the state stream and the streamed commands (C153–C156) | `Feed.v`, `Loose.v` | messages that arrive twice or damaged; the time that an RPC request takes |
| the controller's limit checks, fail-fast check, joint-move speeds and streamed twist on IEEE doubles (C157–C159) | `F64.v`, `Rounded.v` | the poses of the trajectory and the solver (parameters); extended precision and fused operations of the compiler |
| the inverse kinematics of the ASIBOT solver on IEEE doubles: closed form, configurations, choice (C160–C161) | `AsibotF64.v` | decodePose; sine, cosine and atan2 of the C library (parameters) |
| the choice among the solutions of the screw theory solver on IEEE doubles, call after call (C162–C163) | `SelectorF64.v` | the solutions themselves (an input) |
| movj and the streamed pose on IEEE doubles, with the ASIBOT solver or another (C165) | `JointMoveF64.v` | failures of the calls to the robot (Bcc.v, BccMore.v); frames and representation of the pose (an oracle) |
| setParameter, KDL's trapezoidal profile and the control cycles of movl and movv on IEEE doubles (C169–C171) | `CycleF64.v` | failures of the calls to the robot (Bcc.v, BccMore.v); the path of a line and the solver (oracles) |
| `YarpPlugins/CartesianControlServer`, `CartesianControlClient` | `Rpc.v` | help texts, logging, option parsing |
| `YarpPlugins/KdlSolver` (device, `ChainIkSolverPos_ST`, `ChainIkSolverPos_ID`, `ChainFkSolverPos_ST`, configuration) | `KdlSolver.v`, `FkSt.v`, `Config.v`, `Tree.v`, `Dyn.v` (masses, gravity and KDL's recursive Newton-Euler solver, C135–C139), `ToolRace.v` (mutex and threads, C144–C145) | numeric parameters of KDL's solvers; threads in the tree solver |
| `YarpPlugins/KdlTreeSolver` | `Tree.v`, `Config.v`, `TreeDyn.v` (masses, gravity and KDL's recursive Newton-Euler solver for trees, C142–C143) | numeric parameters of KDL's solvers |
| `YarpPlugins/AsibotSolver` | `Asibot.v`, `TrajGen.v`, `AsibotRace.v` (mutex and threads, C146) | `dump`; threads in `diffInvKin` |
| `programs/ftCompensation` | `Ft.v` | option parsing, ports |
| `programs/streamingDeviceController` | `Stream.v` | option parsing, ports |
| `programs/keyboardController` | `Keyboard.v`, `KeyRace.v` (a key and the streaming thread at once, C147–C148) | terminal output |
| `programs/haarDetectionController` | `Haar.v` | option parsing, ports; readings are handled one at a time |
| `scripts/python/find-reachable-cuboid.py` | `Cuboid.v` | the Cartesian device behind the reachability test (any predicate), printing |
| `scripts/python/kdl-from-csv.py`, and the same part of `roboview-from-csv.py` | `Csv.v` | parsing of the CSV files into cells; `eval`, `str` and the rounding of `%` (parameters) |
| `examples/cpp/exampleScrewTheoryTrajectory` | `Follow.v` | command line, connection, printing, clock (the instants are given); the robot is assumed to read one mode and one position per axis |
| other `examples`, other `scripts`, `bindings`, `tests` | not modelled (the robots of `tests/testScrewTheory.cpp` appear in `IkPoseArms.v` and `SlideArms.v`) | |

## Properties and how they are proved

| id | property | status | how |
|----|----------|--------|-----|
| C01 | Forward kinematics always yields a rigid motion | proved | Model MatrixExponential and PoeExpression over R; `rigid` (orthonormal, det 1) is preserved by composition; induction over the terms. |
| C02 | A screw term is a one-parameter group that fixes its own axis | proved | Algebra of Rodrigues' formula (trigonometric identities + ring), unit axis from the constructor. |
| C03 | Changing the base frame of a term is conjugation | proved | Equivariance of cross product under proper rotations; point-wise equality of rigid maps. |
| C04 | Base and tool changes of a product of exponentials act by left and right composition | proved | Induction over the term list using C03 for each term. |
| C05 | Reversing a product of exponentials inverts forward kinematics | proved | Induction; exp(-a) = inverse (C02), conjugation (C03), involution by composition. |
| C06 | Conversion to a KDL chain preserves forward kinematics | proved | KDL Joint/Segment/Chain modelled; induction with the invariant 'frame so far is a pure translation by the last origin'. |
| C07 | Conversion from a KDL chain preserves forward kinematics | proved | Invariant: product of exponentials so far times accumulated zero-configuration frame = chain pose so far. |
| C08 | Conversion from a KDL chain honours reversed-sense joints | partial | False of the model: refuted by a one-segment InvRotZ chain. Kept as a refutation, C07 is the guarded form. |
| C09 | Paden-Kahan 1 solves the one-axis rotation problem | proved | Vector geometry in the plane normal to the axis; atan2 specification lemma. |
| C10 | Paden-Kahan 2 solves the two-crossing-axes problem | partial | Decomposition of a vector in the basis (a1,a2,a1xa2); both candidate intermediate points; reuse C09's rotation lemma. |
| C11 | Paden-Kahan 3 solves the rotation-to-distance problem | partial | Law of cosines. The tangent case with betaCos = -1 is wrong in the code (angle off by pi): refuted; guarded theorem for the non-tangent case. |
| C12 | Pardos-Gotor 1 and 2 solve the pure translation problems | proved | Linear algebra; sign test of PG2 analysed by parallel vectors. |
| C13 | Pardos-Gotor 3 solves the translation-to-distance problem | partial | Quadratic equation. Tangent case with negative projection is wrong in the code: refuted; guarded theorem otherwise. |
| C14 | Pardos-Gotor 4 solves the two-parallel-axes problem | partial | Circle intersection. The tangent branch has a sign error and ignores the plane check: refuted; guarded theorem for the generic branch. |
| C15 | The closed-form IK solver returns one candidate per branch and every candidate satisfies every step | partial | Executable model of solve over an abstract subproblem (oracle); induction over steps and branches. |
| C16 | IK solutions reproduce the requested pose | proved | Whole-pose theorem for arms whose last three axes meet (the wrist class): the points aimed at by the four steps determine the pose; explicit tolerance. That the search finds those steps is checked by running it on rational numbers for the robots of the tests. |
| C17 | The IK problem builder only returns complete problems | partial | Model of searchSolutions/trySolve; invariant over the search that each accepted step removes its joints from the unknown set. |
| C18 | The joint configuration selected respects limits and is closest to the current one | proved | List model, induction; argmin specification. |
| C19 | The selector keeps finding a configuration whenever one exists | partial | False: refuted by a two-call history (sticky branch). |
| C20 | Once chosen, the configuration branch is kept | proved | State-machine invariant over histories. |
| C21 | Vector/frame conversions are mutually inverse | proved | Rodrigues log/exp lemma: GetRot of Rot2; generic branch. |
| C22 | Pose encodings round-trip | partial | Per-representation lemma (RPY, ZYZ, YZ, axis-angle) built on atan2 lemmas. |
| C23 | Unsupported representations and short inputs are rejected | proved | Case analysis over enumerators and lengths. |
| C24 | Codecs support in-place use | proved | Model with explicit aliasing store: every read-after-write in program order. |
| C25 | Velocity encodings round-trip | partial | Algebra for axis-angle scaled; RPY refuted by a witness. |
| C26 | YarpTinyMath builds rigid transforms with the documented composition | proved | Matrix algebra and trigonometry. |
| C27 | axisAngleToH interprets its angle in the documented unit | partial | Refuted by a witness (90 given as degrees). |
| C28 | Isochronous joint moves respect reference speeds and finish together | proved | List fold lemmas over R. |
| C29 | Joint limit checks are sound | proved | List lemmas over R. |
| C30 | A failing control cycle stops the motion | partial | State machine of run + handlers with oracles for robot and solver; invariant over traces. |
| C31 | Velocity commands sent to the robot are within limits | proved | Same state machine; trace predicate on emitted commands. |
| C32 | Streaming commands act only after being preset | proved | Same; invariant on streamingCommand. |
| C33 | Configuration is frozen while controlling | partial | Same; per-operation lemma. |
| C34 | Parameters read back as written | partial | Same; parameter store lemma; value truncation of integer parameters is refuted. |
| C35 | No motion command follows a completed stopControl | partial | Interleaving model of run (non atomic) and stopControl: refuted by a schedule; proved for atomic cycles. |
| C36 | movj leaves the reference speeds as it found them | partial | State machine with reference speeds; two overlapping movj refute it; guarded form for a single move. |
| C37 | Limits supplied in the configuration are enforced | partial | open() limit set-up modelled with vectors as lists; out-of-bounds read is a distinct outcome: refuted. |
| C38 | Fail-fast trajectory checks bound joint velocities | partial | False because displacement is not divided by the time step: refuted by a witness. |
| C39 | Client and server agree on every RPC command | partial | Message-level model of client and server, refinement per command. |
| C40 | The client reports failure when the server cannot be reached | partial | Refuted: empty response counts as success. |
| C41 | State streaming never serves stale data | partial | State machine of the FK stream responder. |
| C42 | After detach the server no longer drives the controller | partial | State machine of attach/detach; refuted for detach and for the uninitialised handle. |
| C43 | The transform port converts poses only | partial | Refuted by a witness (forces in degrees). |
| C44 | Tools are appended to the original chain and removing them restores it | partial | Chain as a list with remembered original. |
| C45 | Closed-form IK recovers after the chain is restored | partial | State machine of the sticky error code: refuted or proved depending on the order of calls. |
| C46 | The one-step IK solver stays within joint limits | partial | Model of CartToJnt with the Jacobian solver as oracle; clamp lemma; NaN as distinct outcome. |
| C47 | Change of origin is composition of poses | proved | Group laws of rigid motions. |
| C48 | ASIBOT inverse kinematics reaches the requested position | partial | Trigonometry of the 2R planar arm. |
| C49 | ASIBOT Jacobian is the derivative of its forward kinematics | proved | Derivatives (stdlib derivable_pt_lim) of explicit FK. |
| C50 | Cubic trajectories meet their boundary conditions | partial | Polynomial algebra; piecewise queries. |
| C51 | Trajectory limit checks are sound | partial | maxVelBelow has a sign bug: refuted; maxAccBelow by convexity of linear acceleration. |
| C52 | Merged TCPs receive the target of the TCP they are merged with | partial | List model of target distribution. |
| C53 | Force compensation deadband is continuous, direction-preserving and exact | proved | Vector algebra. |
| C54 | ftCompensation starts only with a working sensor | partial | Loop model; refuted at the boundary. |
| C55 | The streaming controller stops the robot once per motion | partial | State machine over update(). |
| C56 | The streaming controller stops the robot when its input device fails | partial | Refuted by a two-step history. |
| C57 | Keyboard joint commands respect limits | partial | State machine over keys; clamp invariant. |
| C58 | Appending a formula terminates | partial | Self-append is a distinct case of the model (the container grows while it is read): refuted for every non-empty formula. |
| C59 | A translation subproblem only claims reachability of targets it can reach | partial | False of the model: witnesses for both translation subproblems. |
| C60 | Roll-pitch-yaw rates mean what their order says | partial | Jacobians of the two orders of roll-pitch-yaw compared with the derivative of the rotation (Coquelicot): the documented order is refuted, the other one proved. |
| C61 | Names of the representation systems | proved | Computation over the finite set of names. |
| C62 | A pose vector that is too short is refused by the velocity codecs | partial | Out-of-bounds read as a distinct outcome: refuted; defined when long enough. |
| C63 | An accepted control period is usable | partial | Division by the truncated period as a distinct outcome. |
| C64 | wait reports success only for completed movements | partial | Trace semantics of wait: counterexample runs; theorem for waits called during the movement. |
| C65 | The controller never reads or writes out of bounds | proved | Weakest preconditions over every program of the controller: no path ends out of bounds. |
| C66 | Targets in the tool frame are relative to the guessed configuration | proved | Algebra of frames on the solver model. |
| C67 | invKin succeeds only if the pose is reached | partial | Counterexample: an unreachable pose; guarded form. |
| C68 | The arm solver chooses the configuration with the least travel | proved | Minimum over the candidate list. |
| C69 | Differential kinematics accounts for the tool | partial | Velocity of a point of a rigid body; counterexamples. |
| C70 | Movements run in their control mode | proved | Trace predicate: every motion is preceded by the switch of all joints. |
| C71 | The impedance spring pulls the tool back to where it was | partial | Counterexample with a turned tool; theorem for an aligned one. |
| C72 | ftCompensation does not leave the robot moving when it ends | partial | Module life as a list of events, last command in force. |
| C73 | ftCompensation commands only what its mode says, in the TCP frame | proved | Every command of every run, by case analysis. |
| C74 | The gripper follows the buttons | partial | State machine of the buttons. |
| C75 | A near obstacle slows the robot down | partial | Per-device models. |
| C76 | The centroid handler steers the camera towards its target | proved | Geometry of the field of view. |
| C77 | Pose streaming accumulates the readings | proved | Induction over readings. |
| C78 | An obstacle keeps the robot stopped | partial | Counterexample history; per-cycle theorem. |
| C79 | The robot goes where the hand has gone | proved | Algebra of frames on the Leap model. |
| C80 | Any other key stops the robot | partial | Trace of both devices. |
| C81 | Joint and Cartesian motions are not mixed | partial | Trace of both devices. |
| C82 | Cartesian keys add up | proved | Induction over keys. |
| C83 | No key sequence is undefined | proved | Undefined behaviour as an outcome; invariant over keys. |
| C84 | Streamed poses follow the commanded velocity | proved | KDL trajectories of the thread; induction over its cycles. |
| C85 | What a joint key commands | proved | Case analysis of the key handler. |
| C86 | Forward kinematics is what the configuration describes | proved | Configuration as a tree of groups; induction over links. |
| C87 | Joint values are in the documented units | partial | Rotary proved, prismatic refuted. |
| C88 | A configuration is accepted whole or rejected | partial | Case analysis of the parser; counterexample. |
| C89 | The tree solver gives each endpoint the pose that the configuration describes | proved | Model of KDL::Tree; induction over the description. |
| C90 | The tree solver agrees with the chain solver on a single chain | proved | Both solvers built from the same description. |
| C91 | Current poses of a tree are targets for themselves | partial | Lists of targets; counterexample. |
| C92 | Velocities and forces in the tool frame are those of the base turned by the current orientation | proved | Algebra of twists and wrenches. |
| C93 | Joint velocities produce the velocity asked for | proved | Derivative of forward kinematics (Coquelicot) and the contract of the velocity solver. |
| C94 | Gravity torques are the torques of a robot at rest | proved | Reduction to the general dynamics with zero speeds. |
| C95 | The haar controller follows the last reading | proved | Fold over the readings. |
| C96 | The haar controller stops before it grasps and when it ends | proved | Life of the module with readings between the passes of the grasp loop. |
| C97 | The reachable flag means that the pose is reached | partial | From C15 and the subproblem theorems; counterexample. |
| C98 | The joints answered by invKin bring the tool to the requested pose | proved | C16 lifted to the device. |
| C99 | invKin inverts fwdKin | proved | C98 with the selector. |
| C100 | The screw-theory forward solver can replace that of KDL | partial | C07 lifted to the solver class. |
| C101 | Closed-form inverse kinematics of a Stanford-type arm reproduces the pose | proved | As C16 for a sliding third joint. |
| C102 | Closed-form inverse kinematics of an arm on a linear track reproduces the pose | proved | As C16 for a sliding first joint. |
| C103 | Closed-form inverse kinematics of a SCARA arm reproduces the pose | partial | As C16 for three parallel axes and a slide; counterexample for tilted targets. |
| C104 | movl moves every endpoint along its line, at every moment where the line says | proved | Closed forms of the KDL line and trapezoidal profile; invariant over histories of the controller. |
| C105 | movl ends with the endpoints at their targets | partial | End of the profile; counterexample runs. |
| C106 | With velocity commands movl follows its line with feed-forward and a proportional correction | proved | As C104 with velocity commands and the derivative of the line. |
| C107 | movv sends the requested velocity with a proportional correction | proved | As C106 for the rectangular profile. |
| C108 | movv keeps a constant velocity until it is stopped | partial | Composition of C107 with an ideal robot; counterexample runs. |
| C109 | Gravity compensation and force control send the torques that the robot's dynamics call for | proved | Invariant over histories in torque modes, with a contract for the dynamics solver. |
| C110 | Each streamed command is carried out from the current joint positions, or the robot is held, for a reason | partial | Weakest preconditions of the three streaming methods; counterexample run. |
| C111 | relj moves the endpoints by the offset given | partial | movj on the sum; rotations about one axis add up; counterexample by the trace of the matrices. |
| C112 | A command that is turned down changes nothing | partial | Weakest preconditions of every refused command; counterexample histories. |
| C113 | A command that is accepted replaces the movement in progress | partial | As C112 for accepted commands. |
| C114 | Joint positions sent to the robot are within the joint limits | partial | Trace predicate under a contract for the solver; counterexample runs. |
| C115 | stat tells the pose of the tool set last | proved | Invariant over histories of the controller with the solver answering: the chain is the original one followed by the tool. |
| C116 | The joint positions sent bring the tool to the pose asked for | partial | Composition of C98 with the controller; counterexample run. |
| C117 | The joint velocities sent move the tool with the velocity commanded | partial | Composition of C93 with C106, C107 and C110. |
| C118 | Putting an earlier tool back restores the earlier behaviour | partial | C115 twice; counterexample history. |
| C119 | With the limits of the robot, no position beyond them is sent | proved | Every position sent is an answer of the solver (over all commands); the selector only returns configurations within its limits (C99). |
| C120 | The pose told is that of the robot described in the configuration file | proved | Composition of C115 with the reading of the configuration. |
| C121 | Using the controller through the network changes nothing | proved | Invariant of the controller: the values that its answers carry can be transmitted (preserved by all methods and cycles); then C39 call by call. |
| C122 | No message sent to the server makes the robot exceed its limits | proved | Every message is at most one method of the controller; C119. |
| C123 | The transform port talks about the same poses in its own representation | partial | Composition of C43 with C116 and C120. |
| C124 | The box reported by the workspace search is a reachable box around the initial position | partial | Invariants of the loops of the script; counterexample by computation. |
| C125 | The box reported by the workspace search is the largest reachable one around the initial position | partial | Every box tried is compared with the best one; counterexample by computation. |
| C126 | The closed-form inverse kinematics answers angles of at most half a turn | proved | Range of every subproblem through the derivation of the candidates (C15), then through the histories of the device. |
| C127 | A pose reached within the limits of the joints is answered by the inverse kinematics | partial | C126 against the limits; counterexample. |
| C128 | The trajectory example keeps the tool on the straight line | partial | The KDL line in closed form (C104), C16 for each cycle and the first use of the selector (C99); counterexample by the reach of the arm. |
| C129 | The trajectory example respects the limits of the joints | partial | C126 and the selector; counterexample by the law of cosines. |
| C130 | The trajectory example ends at the goal | partial | Closed form of the profile; counterexample run. |
| C131 | The trajectory example never asks for more than the maximum velocity | proved | Closed form of the profile is Lipschitz. |
| C132 | The trajectory example does not read beyond its vectors | partial | Invariant over the cycles; evaluation for seven axes. |
| C133 | The trajectory example moves a robot that is within its limits | partial | C126 and the selector, both ways. |
| C134 | The trajectory example does not make the robot jump when it begins | partial | Completeness of the closed form (C17) and least displacement; evaluation at the stretched arm. |
| C135 | The torques against gravity are those that gravity needs | proved | Virtual work by induction over the recursion, and derivatives of the frames. |
| C136 | At rest the torques balance gravity and a force on the tool | proved | As C135, with the wrench on the last frame. |
| C137 | The torques in motion are those that the motion needs | proved | Twists and accelerations of the recursion are derivatives along the motion (induction over the chain); uniqueness of velocities. |
| C138 | Gravity compensation holds the robot that the configuration file describes | partial | C109, C115 and C135 with the bodies of the file; counterexample run. |
| C139 | Force control exerts the force asked for | proved | C109 and C137. |
| C140 | A tool that is off its line comes back to it | partial | C117 and a bound of the second derivative of the line (C104) give a contraction of the error in each cycle; induction over the cycles. |
| C141 | Every gain that is accepted keeps the tool on its line | partial | C140 with cycles of one period; counterexample run. |
| C142 | The torques of a robot with several limbs hold the robot that the configuration file describes | partial | As C135, by induction over the tree in the order in which its segments are added; sums over names without repetition. |
| C143 | The torques of a robot with several limbs in motion are those that the motion needs | proved | As C137, over the tree; C52 for the forces. |
| C144 | A query made while the tool is being changed is answered with the tool before or after the change | partial | Interleaving model with the lock and each access to the chain; invariant over the turns; counterexample runs. |
| C145 | Changes of the tool made by several threads take effect one after the other | proved | Invariant over the turns: the chain is that of the changes made so far, plus the part made of the one in course. |
| C146 | The ASIBOT solver keeps the tool in one piece when several threads use it | partial | Interleaving model with one turn for each copy of the tool; counterexample runs. |
| C147 | Once a key has stopped the robot no pose is streamed | partial | Interleaving model of a key and the thread, access by access; invariant over the turns; counterexample run. |
| C148 | The keyboard controller streams poses of one instant and in the frame of the controller, whatever keys are pressed meanwhile | partial | Same model; each pose is matched with the turn in which the thread took the lock; counterexample runs. |
| C149 | A command given at rest takes effect as a whole | partial | Interleaving semantics of C35 for every command: the thread is silent until the last step, by induction over the run; counterexample run. |
| C150 | A movement that is accepted replaces the one in course | partial | Invariant over the interleavings; counterexample runs. |
| C151 | The matrix printed by kdl-from-csv is the pose at rest of the chain in the files | partial | Executable model of the replacements on texts; induction over the pieces of a cell and over the dictionary; counterexample by computation. |
| C152 | The matrix printed by kdl-from-csv can be used as a frame of a configuration | proved | Digits of an integer and their value, by induction; the text that is left after removing zeros. |
| C153 | The state told to a client was that of the controller not long before | proved | Messages on their way as part of the state; invariant: each carries the state of the instant at which it was sent. |
| C154 | The states that a client is told do not go back in time | partial | The same invariant with the instants in order; counterexample runs. |
| C155 | Streamed commands are carried out as sent, whatever the network does | partial | Messages on their way as part of the state; simulation by the controller called directly; permutations and subsequences of what was sent; a counterexample run. |
| C156 | No streamed command sent before a stop moves the robot after it | partial | Invariant after a stop: at rest and with no command selected; a counterexample run. |
| C157 | The fail-fast check covers the trajectory up to its end | partial | Binary64 (Flocq): induction over the rounds of the loop; the sum is monotone and its error bounded; evaluation of the 400 rounds with the default settings. |
| C158 | Rounding does not make a joint move exceed the reference speeds | partial | Binary64 (Flocq): relative error of each operation; an evaluated counterexample. |
| C159 | Only numbers within the velocity limits are sent to the motors by a streamed twist | partial | Binary64 (Flocq): induction over the joints; NaN propagates through sums and products. |
| C160 | What the ASIBOT solver answers are numbers within the limits of the joints, whatever it is given | proved | Binary64 (Flocq): a comparison that holds is between numbers; case analysis of the choice. |
| C161 | Rounding does not put a target out of reach of ASIBOT | partial | Binary64 (Flocq): absolute error of each of the operations, triangle inequality; an evaluated counterexample. |
| C162 | What the screw theory solver answers are numbers within the limits, whatever the solutions | proved | Binary64 (Flocq): induction over the calls; a sum of absolute values is NaN only if the guess has one. |
| C163 | Rounding does not change which solution of the screw theory solver is taken | partial | Binary64 (Flocq): the first of the set is the least; error of the sums; an evaluated counterexample. |
| C164 | A small error in a target moves the answer of two translations only a little | partial | Vector algebra: the error is computed exactly from the offset; both signs. |
| C165 | Only joint positions that are numbers within the limits are sent, whatever pose is asked for | partial | Binary64 (Flocq): C160 for the positions; a finite number over a non-zero one is not NaN, for the speeds; an evaluated counterexample. |
| C166 | A target out of reach is approached as far as one joint can | partial | The distance after a rotation is a cosine of the angle from the answer, after a translation a parabola. |
| C167 | A target missed by a rounding error is still reported reachable | proved | The distance after a rotation is a cosine, after a translation a parabola; their extremes against the tolerance. |
| C168 | A target out of reach is approached as far as two joints can | partial | Two circles apart: the triangle inequality bounds the distance of every posture, and the mirrored answer attains it; counterexamples with Pythagorean triples. |
| C169 | Parameters stay usable whatever they are set to | partial | Binary64 (Flocq): induction over the calls; truncation bounded by Euclidean division. |
| C170 | A line begins where the tool is | partial | Binary64 (Flocq): bounds of each operation; a quotient of positive doubles is positive, zero only with a positive sign, or infinite; evaluated counterexample. |
| C171 | The cycles of movl and movv send only velocities within the limits | partial | Binary64 (Flocq): case analysis of the cycle; NaN propagates through sums and products; evaluated counterexample. |

## Disagreements between the claims and the code

Each line is a machine-checked counterexample of the model, which is meant to be the behaviour of the code. The anchors of the
property in `properties.jsonl` name the code.

| theorem | what happens |
|---------|--------------|
| `C08_from_chain_scaled_refuted` | a joint of kind InvRotZ (scale -1) is converted with the wrong sense |
| `C10_pk2_flag_refuted` | without that hypothesis is false: the present position itself (both joints at zero), half a millimetre off the first axis, is reported unreachable |
| `C11_pk3_far_refuted` | at the largest distance is false: the angle returned puts the point on the near side, two units away from where it must be |
| `C13_pg3_tangent_refuted` | is false at the tangent position behind the point: the sign is lost |
| `C14_pg4_flag_refuted` | a target five units off the plane of motion is reported reachable |
| `C14_pg4_stretched_refuted` | is false when fully stretched: the second angle has the wrong sign |
| `C15_own_transforms_refuted` | is false as stated: here the second candidate was fed with a transform that ignores its own first joint; the flag is true although its pose is not the target |
| `C17_justified_refuted` | the general form is false: for two sliders and a rotary joint in one plane the first step is not justified, and a pose that the arm reaches is reached by no candidate |
| `C19_availability_refuted` | is false: after the first success, another branch being within limits is not enough |
| `C22_euler_yz_refuted` | fails in the Euler YZ system when the tool axis is vertical: this pose has a form in the system, and the decoder writes another one |
| `C25_axis_angle_refuted` | an axis-angle velocity above half a turn per second does not come back |
| `C25_rpy_refuted` | roll-pitch-yaw rates of a tilted pose do not come back |
| `C27_degrees_refuted` | 90 "degrees" are taken as 90 radians |
| `C30_refusal_stops_refuted` | a command refused by the robot, or a failed comparison of poses, stops nothing |
| `C33_tool_refuted` | but the tool can |
| `C34_fractions_refuted` | periods with a fraction of a millisecond are truncated |
| `C34_refused_preset_refuted` | a refused parameter can change another value |
| `C35_none_refuted` | one can |
| `C35_trajectory_alive_refuted` | the thread can use a trajectory after stopControl has destroyed it and returned |
| `C36_overlapping_refuted` | nor does a joint move started during another |
| `C36_stopped_refuted` | stopping does not restore them |
| `C37_user_limits_refuted` | with limits in the configuration the vectors of limits are left too short and the first check reads beyond them |
| `C38_buffer_refuted` | with more than six joints per endpoint the check writes beyond its buffer |
| `C38_velocity_refuted` | the displacement is not related to the time between samples |
| `C39_empty_refuted` | empty vectors and maps are refused by the server |
| `C39_group_refuted` | a parameter group read as one parameter |
| `C39_truncated_refuted` | vocabulary-valued parameters lose their fraction |
| `C40_lost_refuted` | no method ever reports that its request was not delivered; all but stat report success |
| `C40_lost_stat_refuted` | stat fails inside resize when its request is lost |
| `C41_no_arrival_refuted` | while the clock itself is within the timeout (simulated time), data never received is returned |
| `C42_before_attach_refuted` | before attach, a request reads a pointer that was never set |
| `C42_detach_refuted` | requests still reach the controller after detach |
| `C42_detach_streaming_refuted` | streamed commands too |
| `C42_unknown_refuted` | with an unknown representation, open succeeds and leaves the pointer unset |
| `C43_second_pose_refuted` | a second pose is dropped |
| `C43_torque_refuted` | torques are scaled as if they were angles, and a second pose is dropped |
| `C45_restored_refuted` | is false: a tool is appended and removed, and inverse kinematics always fails |
| `C46_at_target_refuted` | is false at the target pose: success is reported and no joint is a number |
| `C48_behind_refuted` | behind the first axis the orientation is another one |
| `C48_orientation_refuted` | a pose that the arm reaches with the wrist bent backwards is answered with joints of another orientation |
| `C48_shoulder_refuted` | with the wrist at the shoulder a reachable pose is refused |
| `C50_outside_refuted` | is false outside of the time interval: the first-order trajectory goes on, both go on before the start, and the third-order one reports an acceleration at rest |
| `C51_acceleration_refuted` | is false of the acceleration of the third order |
| `C51_start_refuted` | is false of trajectories with an initial velocity, whatever their direction |
| `C51_velocity_refuted` | is false of motions backwards |
| `C52_self_refuted` | is false of an endpoint merged with itself: the file is accepted and its target is the identity, whatever is asked for |
| `C54_wait_refuted` | the sensor wait lets a sensor that is never ready pass, and refuses one that is ready at the last check |
| `C55_centroid_refuted` | is false with the centroid handler: it turns around a fixed axis |
| `C55_leap_refuted` | is false of the Leap Motion sensor: closing the hand while moving leaves the last velocity in force |
| `C55_wiimote_refuted` | is false of the Wiimote: it moves along a fixed axis |
| `C56_lost_refuted` | is false: a sensor that stops answering leaves the robot moving for ever |
| `C57_minimum_refuted` | is false of the minimum velocity, which is read and not used |
| `C58_append_self_terminates_refuted` | appending a non-empty formula to itself never finishes |
| `C59_translation_flag_refuted` | both translation subproblems claim reachability of targets no translation reaches |
| `C60_rates_refuted` | the rates are those of the reverse order |
| `C62_pose_size_refuted` | a pose shorter than needed is not refused, its missing elements are read |
| `C63_short_period_refuted` | a shorter one is accepted, and the next controlled movement divides by zero |
| `C64_failed_before_refuted` | it returns true for a movement that had failed before it was called |
| `C64_timeout_refuted` | it returns true when the timeout elapses and the movement is cut short |
| `C67_reached_refuted` | is false: success is reported for a pose that is out of reach |
| `C69_rotated_refuted` | not with a rotated one |
| `C69_tcp_refuted` | nor in the frame of the tool, even if it is not rotated |
| `C71_spring_refuted` | the spring may push the TCP away from its initial position |
| `C72_failure_refuted` | a failing sensor leaves the last motion command in force |
| `C74_obstacle_refuted` | is false with an obstacle: a gripper that is closing goes on closing after the button is released. (The first cycle shows the closing, so it is also a case for the theorem above.) |
| `C75_leap_refuted` | is false of the Leap Motion sensor: an obstacle that comes near moves the robot although the hand is still |
| `C75_wiimote_refuted` | is false of the Wiimote: the linear velocity is the same |
| `C78_forgotten_refuted` | is false: the robot moves again in the next cycle if the sensors have not published anything new. (Its first cycle is a case of the theorem above.) |
| `C78_leap_refuted` | is false of the Leap Motion sensor: an obstacle does not stop it |
| `C80_joint_refuted` | is false of the joints when there is a Cartesian controller: the control board is never told to stop |
| `C81_joint_refuted` | is false the other way round: a Cartesian velocity is sent while a joint velocity has not been stopped |
| `C87_prismatic_refuted` | is false of prismatic joints: their values are taken as degrees too |
| `C88_typo_refuted` | is false of a misspelt Type: the link is left out and the file is accepted |
| `C91_shifted_refuted` | is false when an unmerged endpoint comes after a merged one: it is asked for the pose of another |
| `C97_pose_refuted` | it does not guarantee the pose: with one joint the only point aimed at is in place while the tool is upside down |
| `C100_reversed_refuted` | is false of joints of reversed sense (C08) |
| `C103_tilted_refuted` | without that the claim is false: a target that is upside down is reported reachable, although the candidate leaves the tool upright |
| `C105_arrival_refuted` | the target itself is not sent |
| `C105_several_refuted` | with two endpoints, success is told while one of them has nine centimetres to go |
| `C108_far_refuted` | after ten units of path it is told to go back |
| `C108_spin_refuted` | asked to turn three quarters of a turn per second, it is told to turn the other way |
| `C108_tool_refuted` | with velocities seen from the tool, it is told to go three times as fast |
| `C110_weight_refuted` | when a reading fails no torque is sent, not even those that carry the robot's weight |
| `C111_composed_refuted` | otherwise it is not, whichever is applied first |
| `C112_force_refuted` | a force that is turned down replaces the one exerted |
| `C112_line_refuted` | while movl keeps the endpoint where it is, a movl that is turned down makes it jump by half a metre |
| `C113_there_refuted` | told to go to where it is, a robot that moves at constant velocity moves on |
| `C114_movj_refuted` | if the solver's are not, movj sends them |
| `C114_pose_refuted` | so does pose |
| `C116_reach_refuted` | without the warning: movj accepts a target out of reach and moves somewhere else |
| `C118_accepted_refuted` | a target that was accepted without a tool is refused for good once a tool has been set and taken away |
| `C124_reachable_refuted` | but not all the positions of the box reported are reachable, even if the reachable region is convex |
| `C125_largest_refuted` | nor is it the largest reachable box that contains the initial position |
| `C127_answered_refuted` | a pose taken at joint values within the limits is not always answered |
| `C128_reach_refuted` | when the line leaves the reach of the arm, positions are sent all the same, which put the tool more than ten centimetres away from the line |
| `C129_limits_refuted` | the limits told by the robot, in degrees, are taken as radians: an elbow with limits of 90 degrees is sent further |
| `C130_ends_refuted` | with less time than the velocity allows, the pose asked is still more than ten centimetres from the goal when the program ends |
| `C132_seven_refuted` | the program reads beyond its vectors if the robot has seven axes |
| `C133_stuck_refuted` | a robot whose joint values are within its limits is never moved if one of its joints has both limits on one side, beyond a few degrees |
| `C134_jump_refuted` | a robot that hangs straight is sent, at the first instant, half a turn of the elbow away |
| `C138_weight_refuted` | not so if the moments of inertia of a link with a mass are left out: the mass is then ignored |
| `C141_gain_refuted` | a gain that the controller accepts does not make the tool leave its line. False: with a gain of 3, which is accepted, a robot that does exactly as told, cycle by cycle and on time, is twice as far from where it should be in the next cycle |
| `C142_weight_refuted` | not so if the moments of inertia of a link with a mass are left out: the mass is then ignored |
| `C144_forces_refuted` | a tool changed for another one by another thread makes the torques wrong, and the method returns true |
| `C144_gravity_refuted` | a tool added by another thread makes the torques against gravity fail |
| `C144_pose_refuted` | while the tools are taken off, the pose may be that of no robot at all: true, and the pose of the base |
| `C144_undefined_refuted` | that reading of the number of joints, out of the lock, is undefined for the language |
| `C146_lost_refuted` | of two tools added at once by two threads one may be lost: the pose is not that of either order |
| `C146_torn_refuted` | in the frame of the tool, the answer may be that of no instant: out of reach, when staying in place is asked for |
| `C147_stop_refuted` | it is false of the code: suspend does not wait for the run in course |
| `C148_frame_refuted` |  |
| `C148_undefined_refuted` | with the key that swaps the frames a null trajectory is used, or a pose of the base frame is sent when the controller has already been told to take poses as displacements of the tool |
| `C149_preset_refuted` | otherwise a streaming command that is preset after stopping a joint move can be lost: true is returned, and another one is read |
| `C150_aborted_refuted` | it may be stopped, as its control mode makes the cycle of the one before fail |
| `C150_destroyed_refuted` | and the thread may use a trajectory of the one before that the new one has destroyed |
| `C150_lost_refuted` | it may be lost, if the one before is a joint move that ends at that moment: every call succeeds, and nothing moves |
| `C151_prefix_refuted` | otherwise another length is taken: l10 is taken for l1 and a zero |
| `C154_late_refuted` | ... or if a message arrives after the answer to an RPC request that was made after it was sent |
| `C154_overtaken_refuted` | but they do if a message overtakes another  |
| `C155_last_refuted` | otherwise the robot can be left with a velocity that is not that of the last command sent, although all have arrived: the client asked for [x0], for which the solver gives no velocity, last, and the robot was told [v] last |
| `C156_forgotten_refuted` | a command sent before the stop can still move it, if its kind is selected again before it arrives |
| `C157_end_refuted` | with the default duration (10 s) and period (50 ms) the end is not checked: the target of an accepted trajectory can be out of reach |
| `C158_exceeded_refuted` | the reference speed can be exceeded (by one unit in the last place: 11 degrees at 30 degrees per second) |
| `C159_nan_refuted` |  |
| `C161_edge_refuted` | with no margin, a target that the arm can reach may be refused |
| `C163_nearest_refuted` | another solution may be nearer, by less than the rounding of the sum |
| `C164_near_refuted` | however near the target is to one that can be reached exactly, the answer can be a unit of length away from it |
| `C165_movl_refuted` | with another solver they are whatever it answers, 400 degrees or NaN: nothing is checked |
| `C165_other_solver_refuted` | it takes a solver that looks at the limits: the controller itself streams positions that are NaN, and positions beyond the limits, even with the robot in the middle of its range |
| `C166_distance_refuted` | both can answer a place that is a unit of length worse than another |
| `C168_nearest_refuted` | is false in general: every answer is a unit of length or more farther than another posture, with PK2 for a target too far, with PG4 for a target too near, and with PG4 for a target too far |
| `C169_refuted` | is false for NaN: it is accepted as a gain and as a duration, and as a wait period it is undefined behaviour; so is a wait period of 3 000 000 000 ms |
| `C170_refuted` | is false: the duration NaN is accepted, and the first cycle sends a joint from 0 to 80 degrees |
| `C171_period_refuted` | is false with ordinary numbers too: a period of half a millisecond is accepted and kept as 0, and the first cycle, the tool being where it should be, sends NaN |
| `C171_refuted` | is false: the gain NaN is accepted, and a cycle sends NaN to the motor |

## Trusted base

* The kernel of Coq 8.16.1 (`coqc`, and `coqchk` as an independent check). No plugin, no axiom of our own, no switched-off check,
  nothing admitted.
* The transcription of the code into the model files.
* Axioms of the standard library, and of no other library. They all come with the construction of the real numbers and with
  real analysis: `ClassicalDedekindReals.sig_forall_dec`, `ClassicalDedekindReals.sig_not_dec`,
  `FunctionalExtensionality.functional_extensionality_dep`, `Classical_Prop.classic`. (A checker that counts parameters of loaded
  modules also lists the abstract operations of `Rdefinitions` and `ssrunder`, which the standard library defines behind module types.)
* Behaviour of dependencies whose sources are not in `/repo`, written down from their documentation:
  * Orocos KDL: vectors, rotations, frames, joints, segments, chains (`Kdl.v`); `GetRotAngle`, `GetRPY`, `GetEulerZYZ`, twists and
    wrenches (`KdlRot.v`); `diff` (`KdlSolver.v`, `Ft.v`); `ChainIdSolver_RNE` and `RigidBodyInertia` (`Dyn.v`), `TreeIdSolver_RNE` (`TreeDyn.v`); `Path_Line`, `VelocityProfile_Trap`,
    `VelocityProfile_Rectangular`, `Trajectory_Segment` (`KdlTraj.v`); `Frame::DH` (`Config.v`); `Tree` (`Tree.v`). The tolerance
    `KDL::epsilon` is 1e-6.
  * KDL's numeric solvers (positions, velocities, dynamics, Jacobian) are parameters. Where a claim needs them to be right this is a
    hypothesis of the theorem, written in a `*Spec.v` file: `faithful_chain`, `faithful_tree` (`TreeSpec.v`), `solves`,
    `moves_as_asked` (`BccLineSpec.v`), `solves_in`, `dynamics`, `tells_poses`, `solves_inside` (`BccCmdSpec.v`); `as_kdl`
    (`BccKdl.v`) says that the trajectory objects are those of `KdlTraj.v`.
  * YARP: `createVocab32` and the control-mode vocabularies (`Vocab.v`); bottles, RPC and `DeviceResponder` (`Rpc.v`); matrix
    operations (`TinyMath.v`); `axis2dcm`, `dcm2axis` (its eigenvectors are an oracle), `luinv`, `crossProductMatrix`, `pinv`
    (oracle) (`Asibot.v`); `RFModule` and `PeriodicThread` (`Ft.v`, `Keyboard.v`, `Haar.v`); `Contactable::interrupt` (`Haar.v`);
    an absent `Value` is an empty list (`Config.v`).
  * The network: an RPC request is answered at once, or not at all (C40); a message sent over "udp" arrives once and whole, at any later time and in any
    order, or is lost (`Feed.v`, `Loose.v`).
  * IEEE binary64 arithmetic: the definitions of the library Flocq, without payloads of NaN, rounding to nearest even (`F64.v`).
  * Python: `str.replace`, `str.rstrip`, dictionaries and `'%.15f'` (`Csv.v`); the order of a dictionary, `eval`, `float`, `str` of a
    number and the rounding to 15 decimals are parameters (`rounds15` in `CsvSpec.v` says that the closest one is taken).
* Scheduling: each method of a device is one step, except in C35, C149 and C150 (control thread against a command), C96 (readings between the
  passes of the grasp loop), C147–C148 (a key and the streaming thread at once: one step for each call and each access to a shared
  member; a run of the thread looks at `suspended` once, before it begins; left to themselves a key and a run do what `Keyboard.v` says,
  `runs_alone` in `KeyRaceFacts3.v`) and C144–C146 (threads that use a solver at once: one step for each access to the chain, or for each copy
  of the tool; memory is sequentially consistent, a read of a counter while another thread writes it is either undefined or one of
  the values that the counter takes, and assigning a `KDL::Chain` sets its counters to 0 and adds the segments one by one).

### Assumptions of each theorem, as listed by `Print Assumptions`

* **closed under the global context** (8): `C61_names`, `C61_other_names`, `C66_asibot_refused`, `C96_failed`, `C96_failed_ex`, `C96_grasp_ex`, `C155_at_most_once`, `C155_order_partial`
* **sig_forall_dec** (9): `C05_make_reverse_agrees`, `C21_twists_wrenches`, `C26_update`, `C37_robot_limits`, `C40_server_failure_partial`, `C41_answer`, `C41_no_stream`, `C42_detach_streaming_refuted`, `C58_append_self_terminates_refuted`
* **sig_forall_dec, functional_extensionality_dep** (124): `C16_every_point`, `C18_first_choice`, `C19_availability_refuted`, `C20_branch_kept`, `C28_motion_last`, `C28_moves_when_needed`, `C28_speeds_isochronous`, `C29_directions`, `C29_positions`, `C29_velocities`, `C30_error_count`, `C30_failing_cycle`, `C30_refusal_stops_refuted`, `C30_then_idle`, `C30_tolerated`, `C31_cycle`, `C31_others`, `C31_twist`, `C32_pose`, `C32_preset`, `C32_twist`, `C32_wrench`, `C33_parameter`, `C33_parameters`, `C33_tool_refuted`, `C34_fractions_refuted`, `C34_read_back`, `C34_refused`, `C34_refused_preset_refuted`, `C35_at_most_one_partial`, `C35_between_cycles`, `C35_none_refuted`, `C35_trajectory_alive_refuted`, `C36_overlapping_refuted`, `C36_restored_partial`, `C36_stopped_refuted`, `C37_user_limits_never`, `C37_user_limits_refuted`, `C38_buffer_refuted`, `C38_checked_partial`, `C38_velocity_refuted`, `C39_empty_refuted`, `C39_group_refuted`, `C39_same_call_partial`, `C39_same_streaming`, `C39_truncated_refuted`, `C40_lost_refuted`, `C40_lost_stat_refuted`, `C40_never_reported`, `C41_fresh`, `C41_no_arrival_partial`, `C41_no_arrival_refuted`, `C42_before_attach_partial`, `C42_before_attach_refuted`, `C42_detach_refuted`, `C42_last_attached_partial`, `C42_unknown_refuted`, `C44_asibot_opened`, `C46_best_step`, `C50_between`, `C50_derivatives`, `C50_outside_refuted`, `C50_positions`, `C50_velocities`, `C51_acceleration_blind`, `C51_acceleration_partial`, `C51_acceleration_refuted`, `C51_never_refused`, `C51_start_refuted`, `C51_velocity_partial`, `C51_velocity_refuted`, `C63_period`, `C63_short_period_refuted`, `C64_completed`, `C64_failed_before_refuted`, `C64_timeout_refuted`, `C65_no_overrun`, `C70_preset`, `C70_started`, `C95_follows`, `C95_follows_ex`, `C96_frame`, `C96_frame_ex`, `C96_grasp`, `C96_no_move`, `C96_no_move_ex`, `C96_rest`, `C96_rest_ex`, `C109_force`, `C109_gravity`, `C110_twist`, `C110_weight_refuted`, `C110_wrench_partial`, `C112_force_refuted`, `C112_rejected_partial`, `C113_accepted_partial`, `C113_there_refuted`, `C114_inside_partial`, `C114_movj_refuted`, `C114_pose_refuted`, `C121_transparent`, `C124_contains`, `C124_outer`, `C124_reachable_refuted`, `C125_largest_partial`, `C125_largest_refuted`, `C137_any`, `C149_preset_refuted`, `C149_whole_partial`, `C150_aborted_refuted`, `C150_destroyed_refuted`, `C150_lost_refuted`, `C150_never_back_partial`, `C153_age_unbounded`, `C153_true_once`, `C154_fed_partial`, `C154_late_refuted`, `C154_overtaken_refuted`, `C154_rpc`, `C155_all_partial`, `C155_as_if`, `C155_last_refuted`, `C156_forgotten_refuted`, `C156_stopped`
* **sig_forall_dec, sig_not_dec, functional_extensionality_dep** (89): `C01_fk_ordered_product`, `C01_fk_rigid`, `C02_exp_one_parameter_group`, `C02_exp_quarter_turn`, `C03_rebase_is_conjugation`, `C04_append`, `C04_change_base`, `C04_change_tool`, `C05_reverse_inverts_fk`, `C05_reverse_twice`, `C06_to_chain`, `C07_from_chain`, `C07_round_trip`, `C08_from_chain_scaled_refuted`, `C12_pg1_exact`, `C12_pg2_exact`, `C13_pg3_flag`, `C13_pg3_generic_partial`, `C13_pg3_tangent_partial`, `C13_pg3_tangent_refuted`, `C15_candidates`, `C15_every_path`, `C15_own_transforms_partial`, `C15_own_transforms_refuted`, `C15_total`, `C15_total_first`, `C17_complete`, `C17_justified_partial`, `C17_null`, `C17_total`, `C18_first_choice_gait`, `C20_branch_kept_gait`, `C21_always_rigid`, `C21_wrong_size`, `C26_elementary`, `C26_euler_zyz`, `C26_rigid`, `C27_axis_angle_partial`, `C27_degrees_refuted`, `C27_rigid_partial`, `C45_restored_partial`, `C52_self_refuted`, `C52_short`, `C52_targets_partial`, `C54_wait_partial`, `C54_wait_refuted`, `C59_translation_flag_refuted`, `C73_configure`, `C88_joints_partial`, `C88_limits`, `C88_missing`, `C88_typo_refuted`, `C89_independent`, `C89_unique`, `C92_others`, `C92_others_tree`, `C92_tree`, `C93_tree`, `C94_chain`, `C94_tree`, `C100_agrees_partial`, `C100_reversed_refuted`, `C100_segments`, `C110_pose`, `C111_base`, `C111_composed_partial`, `C111_tool`, `C132_seven_refuted`, `C132_six`, `C135_gravity`, `C136_force`, `C137_motion`, `C137_only`, `C142_gravity`, `C142_weight_refuted`, `C143_answers`, `C143_motion`, `C143_only`, `C145_serial`, `C151_pose_partial`, `C151_prefix_refuted`, `C151_sorted_partial`, `C152_printed`, `C164_backward`, `C164_forward_partial`, `C164_near_refuted`, `C166_pg1`, `C166_pg3_ahead_partial`, `C167_pg3`
* **sig_forall_dec, sig_not_dec, classic, functional_extensionality_dep** (261): `C09_pk1_complete`, `C09_pk1_found`, `C09_pk1_sound`, `C10_pk2_complete_partial`, `C10_pk2_flag_refuted`, `C10_pk2_flag_sound`, `C11_pk3_far_refuted`, `C11_pk3_flag_complete`, `C11_pk3_flag_sound`, `C11_pk3_generic_partial`, `C11_pk3_near_partial`, `C14_pg4_complete_partial`, `C14_pg4_flag_plane_partial`, `C14_pg4_flag_refuted`, `C14_pg4_flag_sound_partial`, `C14_pg4_stretched_refuted`, `C15_library_steps`, `C16_defined`, `C16_found`, `C16_reached`, `C17_justified_refuted`, `C17_tested_arms`, `C21_frame_vector_frame`, `C21_vector_frame_vector`, `C22_decode`, `C22_encode`, `C22_euler_yz_refuted`, `C22_round_trip`, `C23_short_input`, `C23_supported`, `C23_unsupported`, `C24_in_place`, `C24_velocity_in_place`, `C25_axis_angle_refuted`, `C25_level_pose_partial`, `C25_round_trip_partial`, `C25_rpy_refuted`, `C26_euler_yz`, `C43_pose_converted`, `C43_pose_refused`, `C43_second_pose_refuted`, `C43_state_converted`, `C43_torque_refuted`, `C44_asibot_forward_partial`, `C44_asibot_restored`, `C44_restored`, `C44_tools`, `C45_lost_forever`, `C45_restored_refuted`, `C46_at_target_nan`, `C46_at_target_refuted`, `C46_within`, `C47_asibot_difference`, `C47_asibot_equal`, `C47_asibot_origin`, `C47_associative`, `C47_composes`, `C47_difference`, `C47_difference_zero`, `C47_inverse`, `C48_answers`, `C48_behind_refuted`, `C48_forward_partial`, `C48_forward_position`, `C48_found`, `C48_inverse`, `C48_inverse_tcp`, `C48_orientation_refuted`, `C48_shoulder_refuted`, `C49_base`, `C49_tcp`, `C53_continuous`, `C53_plain`, `C53_tool`, `C53_unloaded`, `C55_centroid_refuted`, `C55_leap_refuted`, `C55_once_partial`, `C55_velocity_partial`, `C55_wiimote_partial`, `C55_wiimote_refuted`, `C56_lost_refuted`, `C56_refused_partial`, `C57_limits_partial`, `C57_minimum_refuted`, `C60_rates_partial`, `C60_rates_refuted`, `C62_pose_size_partial`, `C62_pose_size_refuted`, `C66_other_frame`, `C66_tool_frame`, `C67_reached_refuted`, `C67_returned_partial`, `C68_shortest`, `C69_rotated_refuted`, `C69_tcp_refuted`, `C69_tool_partial`, `C71_spring_partial`, `C71_spring_refuted`, `C72_failure_refuted`, `C72_interrupted_partial`, `C73_mode`, `C74_gripper_partial`, `C74_obstacle_refuted`, `C75_half_partial`, `C75_leap_refuted`, `C75_wiimote_refuted`, `C76_centroid`, `C77_pose`, `C78_forgotten_refuted`, `C78_leap_refuted`, `C78_obstacle_partial`, `C79_pose`, `C79_twist`, `C80_joint_refuted`, `C80_stop_partial`, `C81_handover_partial`, `C81_joint_refuted`, `C81_silent_partial`, `C82_velocity`, `C83_defined`, `C83_order`, `C84_base`, `C84_still`, `C84_tcp`, `C85_joint`, `C86_forward`, `C87_prismatic_refuted`, `C87_units_partial`, `C89_forward`, `C90_chain`, `C91_back_partial`, `C91_shifted_refuted`, `C92_chain`, `C93_chain`, `C97_points_partial`, `C97_pose_refuted`, `C98_reached`, `C99_answered`, `C99_round_trip`, `C101_defined`, `C101_found`, `C101_reached`, `C102_defined`, `C102_found`, `C102_reached`, `C103_defined`, `C103_found`, `C103_reached_partial`, `C103_tilted_refuted`, `C104_on_line`, `C105_arrival_refuted`, `C105_end_partial`, `C105_near_partial`, `C105_several_refuted`, `C106_steered`, `C107_steered`, `C108_constant_partial`, `C108_far_refuted`, `C108_spin_refuted`, `C108_tool_refuted`, `C111_composed_refuted`, `C112_line_refuted`, `C115_told`, `C116_line_partial`, `C116_movj_partial`, `C116_pose_partial`, `C116_reach_refuted`, `C117_constant_partial`, `C117_line`, `C117_twist`, `C118_accepted_refuted`, `C118_told_partial`, `C119_limited`, `C120_described`, `C121_told`, `C122_limited`, `C123_command`, `C123_movj_partial`, `C123_told`, `C126_answers`, `C126_candidates`, `C127_answered_refuted`, `C127_blocked`, `C128_line`, `C128_reach_refuted`, `C129_half_turn`, `C129_limits_refuted`, `C130_ends`, `C130_ends_refuted`, `C131_speed`, `C132_defined`, `C133_moved`, `C133_stuck_refuted`, `C134_jump_refuted`, `C134_still`, `C138_gravity`, `C138_weight_refuted`, `C139_force`, `C140_constant_partial`, `C140_line`, `C141_gain_partial`, `C141_gain_refuted`, `C144_forces_partial`, `C144_forces_refuted`, `C144_gravity_partial`, `C144_gravity_refuted`, `C144_kinematic_partial`, `C144_pose_refuted`, `C144_undefined_refuted`, `C146_instant_partial`, `C146_lost_refuted`, `C146_torn_refuted`, `C147_one_partial`, `C147_stop_refuted`, `C148_defined_partial`, `C148_frame_refuted`, `C148_instant_partial`, `C148_undefined_refuted`, `C157_end_refuted`, `C157_ends`, `C157_samples`, `C158_exceeded_refuted`, `C158_rounded`, `C159_nan`, `C159_nan_refuted`, `C159_sent`, `C160_defined`, `C160_within`, `C161_edge_refuted`, `C161_margin`, `C162_served`, `C163_computed`, `C163_nearest`, `C163_nearest_refuted`, `C165_movj`, `C165_movl`, `C165_movl_refuted`, `C165_other_solver_refuted`, `C165_pose`, `C166_distance_refuted`, `C166_pk1`, `C166_pk3_inner_partial`, `C166_pk3_outer`, `C167_pk1`, `C167_pk3`, `C168_nearest_refuted`, `C168_pg4_aligned_partial`, `C168_pg4_mirror`, `C169_defined_partial`, `C169_kept_partial`, `C169_refuted`, `C170_jumps`, `C170_lasts`, `C170_refuted`, `C170_starts_partial`, `C171_asked_partial`, `C171_gain`, `C171_numbers_partial`, `C171_period_refuted`, `C171_refuted`
