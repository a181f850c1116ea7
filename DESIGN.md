# Formal model of SPECULA in Rocq

The model lives in `rocq/theories`. Every model definition cites the file and
lines of `/repo` it mirrors and states its simplifications. Model files
(`*Model.v`) contain no proofs; `*Spec.v` files contain the independent
vocabulary used to state properties; `*Proofs.v` files contain lemmas;
`Properties_*.v` files contain the theorems named in `MANIFEST.json`, concrete
non-trivial instances (`Example`), and `Print Assumptions` for every theorem.

## General modelling decisions

* Python exceptions are values: `res A = Ok a | Err e` with `e` the exception class.
* Python dictionaries are association lists in insertion order with unique keys.
* Strings are Coq `string`s; `str.split`, `endswith`, `int(str)` are modelled.
* Times are `Z` nanoseconds (Python `int`).
* Numbers in arrays: either an arbitrary carrier with arbitrary operations
  (theorems that do not need algebra, hence also valid for IEEE floats), or an
  arbitrary field (record `arith` with the hypothesis `is_field`; theorems that need
  algebra; exact arithmetic, rounding not modelled). `Qc` is the instance used in
  examples and refutations. Floats are modelled with their rounding only for the
  conversion of times (C23) and for time stamps in files (C42).
* Numpy arrays are lists (lists of lists for matrices). `NpModel.v` models slices,
  index lists and assignments with negative indices, clipping and broadcasting of
  one value. Aliasing is modelled explicitly where the code relies on it.
* Unbounded recursion or `while` is modelled with fuel only together with a proof
  that the fuel is sufficient; exhaustion is an error value.
* Numerical routines whose values do not matter for a property (random numbers,
  FFTs, the optical propagation, the detector noise, the demodulation of a signal)
  are parameters of the model: the theorems hold for every such function.

## Models

| area | model | properties |
|------|-------|------------|
| names of outputs, delays, parsing | `NamesModel` | C01 |
| trigger order | `TrigOrderModel` | C02-C06 |
| main loop, check of inputs, triggers, store of outputs | `LoopModel`, `LoopLink` | C07, C11-C15 |
| building objects from parameters, overrides, replay | `ParamsModel` | C08-C10, C46, C68 |
| distributed runs (ranks, channels, messages) | `DistModel`, `DistSim` | C16-C18 |
| connections, messages, tags | `ConnModel`, `TagModel` | C19-C22, C67 |
| times and floats | `SecondsModel` | C23 |
| control filters | `FilterModel`, `MultirateModel`, `SsrDataModel` | C24-C33, C61-C65 |
| integration windows, detectors | `WindowModel` | C34-C36 |
| signal generators | `GenModel` | C37-C39 |
| data store, buffer, source | `StoreModel` | C40-C45 |
| vectors: slicing, inserting, operations, combinators | `VecModel`, `NpModel` | C47-C50 |
| deformable mirror | `DmModel` | C51 |
| modal reconstructors | `RecModel` | C52, C53, C69 |
| interaction matrix calibration | `CalibModel` | C54 |
| optical gain, demodulation | `OpticalModel` | C55, C70 |
| slope vectors | `SlopesModel` | C56 |
| saving and restoring data objects | `FitsModel` | C57, C58 |
| rebinning, pixel indices, detector binning, resampling | `RebinModel` | C59, C60, C66, C72 |
| numbers of modes and slopes | `CutModel` | C71 |
| slope computers of the pyramid, Shack-Hartmann, Zernike and curvature sensors, coordinate grids | `SlopecModel`, `ExtModel` | C73-C78 |
| electric fields, their combination, reflection and flattening, propagation without interpolation | `FieldModel` | C79, C80 |
| interpolation (CPU and GPU kernel), geometric propagation through layers | `InterpModel`, `PropModel` | C81, C82 |
| moving phase screens, their files and distribution among layers | `AtmoModel`, `ScreenModel` | C83, C84 |
| modal analysis of wavefronts, matrix-vector product | `AnalysisModel` | C85 |
| resampling of fields with extrapolation; cubes of phase screens; arrays in time | `ExtrapModel`, `CubeModel` | C86, C87, C88 |
| filters with changing gains; dark calibration during a run; calibration files | `DynModel`, `DarkModel`, `CalFileModel` | C89, C90, C91 |
| construction of the objects | `BuildModel` | C92 |
| connection of the objects, input lists | `WireModel` | C93, C94 |
| infinite phase screens and their atmosphere | `InfModel` | C95, C96, C97 |
| images of a point, PSF object, perfect coronagraph (real numbers, `Fourier.v`) | `PsfModel` | C98, C99, C100 |
| coronagraphs and focal plane filters (real numbers) | `FocalModel` | C101 |
| masks of pupils (no spider arms) | `MaskModel` | C102 |
| geometry of Fourier transforms, sampling of the image of a point | `GeomModel` | C103 |
| radial profile, width at half maximum, encircled energy (square root abstract) | `RadialModel` | C104 |
| minimum mean square error reconstructor (inverse of a matrix abstract) | `MmseModel` | C105 |
| demodulation of a signal (real numbers) | `DemodModel` | C106 |
| geometry of a Shack-Hartmann sensor (exact rationals; sizes also in IEEE binary64) | `ShGeomModel` | C107 |
| image of a Shack-Hartmann sensor, arrays shared by sensors, DistributedSH (real numbers) | `ShImageModel` | C108 |
| modulated pyramid: prism, modulation, images, light, sizes (real numbers; sizes and steps exact rationals) | `PyrModel` | C109 |
| polychromatic sensors: mixture of the images of sensors of single wavelengths, tilts, flux factors | `PolyModel` | C110 |
| optimisation of modal gains, search of the largest stable gain | `OptModel` | C111 |
| Zernike polynomials: numbering, values, derivatives, kept matrices | `ZernModel` | C112 |
| periodic and random signals, amplitudes by radial order | `WaveModel` | C113 |
| ideal derivative sensor | `DerivModel` | C114 |
| number of photons, tables of bands | `PhotModel` | C115 |
| petal modes | `PetalModel` | C116 |
| calibration of pyramid pupils, also with changing parameters | `PupCalModel` | C117 |
| calibration of Shack-Hartmann sub-apertures | `SubapCalModel` | C118 |
| random phase screens | `RandPhaseModel` | C119 |
| plots and printing of values | `PlotModel` | C120 |
| analysis of a stored simulation in other directions | `FieldAnModel` | C121 |
| tracking of mis-registrations | `SprintModel` | C122 |
| modal bases from influence functions | `KlBaseModel` | C123 |
| extended sources | `ExtSrcModel` | C124 |
| curvature sensor, laser launch telescope | `CurvModel` | C125 |
| low-pass filters | `LpfModel` | C126 |
| spatial frequencies | `FreqModel` | C127 |
| refractive index of air | `AirModel` | C128 |
| chromatic displacement of layers | `ChromaModel` | C129 |
| average spot | `SpotModel` | C130 |
| focal mask of the Zernike sensor | `ZernSensModel` | C131 |
| rotational shearing interferometer | `CiaoModel` | C132 |
| links with satellites (real numbers) | `FsocModel` | C133 |
| noise of elongated spots | `ElongModel` | C134 |

## Plan per property

| id | modelled | how proved |
|----|----------|------------|
| C01 | split_output, int() parsing | parse/print round trip by induction on strings |
| C02-C06 | build_trigger_order, is_leaf, has_delayed_output, remove_inputs | loop invariant over rounds; ranking argument for completeness |
| C07, C15 | LoopControl.iter over abstract objects, store of outputs | simulation argument over the trigger order; uniqueness of synchronous solutions |
| C08 | build_order | DFS invariant |
| C09, C10 | combine_params, apply_overrides | dictionary algebra |
| C11, C12 | LoopControl.run, niters | induction on time; C12 refuted by witness, proved under divisibility |
| C13, C14 | checkInputTimes, check_ready, trigger, post_trigger | case analysis, call-trace invariant |
| C16-C18 | per-rank programs with FIFO channels | channel-content invariant; minimal-position argument |
| C19 | send_remote_output / receive_new_value modes | invariant over histories, refuted for scalars |
| C20, C67 | computeTag | injectivity of the hashed string; pigeonhole refutation for the hash |
| C21 | InputList/InputValue/flatten | induction on nesting |
| C22 | transferDataTo/copyTo | proved for arrays, refuted for scalars |
| C23 | t_to_seconds/seconds_to_t with rounding to 53 bits over Z | error bounds over Q; refutation by computation |
| C24-C31, C61-C65 | BaseFilter, IirFilter, Integrator, discrete_delay_tf, filter data | history invariants; field algebra |
| C32, C33 | SsrFilter, MultirateComplementaryFilter | induction on steps |
| C34-C36 | WindowedIntegration, CCD | window-sum invariant |
| C37-C39 | generators | list lemmas |
| C40-C46 | DataStore, DataBuffer, DataSource, replay | history invariants; refutations by witness |
| C47-C50 | slicer, inserter, operation, combinators | positions selected by slices |
| C51-C55, C69, C70 | DM, modal reconstructors, calibrators, optical gain, demodulator | linear algebra over a field, histories |
| C56 | Slopes | positions of X and Y slopes in the vector |
| C57, C58 | save/restore/from_header | file system as a dictionary; round trip by computation on headers |
| C59, C60, C66, C72 | rebin2d, toccd, apply_binning, unravel_index_2d | sums over blocks |
| C68 | build_replay/extract targets | closure argument |
| C71 | cut_modes and the size operations | slices as firstn/skipn |
| C73-C78 | Slopec and its subclasses, make_xy | invariants over sessions; sums and inequalities over ordered rationals, NaN as a value |
| C79, C80 | ElectricField, combinator, reflection, flattening | 2-D arrays as functions of the pixel; broadcasting explicit; state after any triggers |
| C81, C82 | Interp2D, AtmoPropagation | interpolation as a sum of tents over all pixels; rays as straight lines in metres; rationals |
| C83, C84 | AtmoEvolution, phasescreens_manager | distance covered by the wind as a sum over triggers; screens as functions of position; file names as records; rationals |
| C85 | ModalAnalysis, MVM | pixels of the mask as an ordered list; coefficients as sums; any field |
| C86 | EFInterpolator | extension of a function beyond a set of pixels; tents; seen points |
| C87 | PhaseScreenCube | straight lines in time; C86 with a full pupil; names of outputs as strings |
| C88 | SpatioTempArray | positions in row order of indices of any length |
| C89 | DynamicIirFilter, DynamicIntegrator | difference equations with coefficients of the step |
| C90 | DynamicDarkCalibrator | means of the frames since the request |
| C91 | CalibManager.filename, SnCalibrator, names in the other calibrators | strings, files as a dictionary, means |
| C92 | Simul.build_objects | induction along the build order of C08; comparison of processes object by object |
| C93 | Simul.connect_objects | one step per reference that leaves everything else unchanged, induction over the references; the two ends of a message compared through the placement of C92 |
| C94 | Simul.create_input_list_inputs | induction over entries, then objects; values of outputs are never lost; combined with C93 |
| C95 | InfinitePhaseScreen | stencil described by divisibility; one step of add_line; strip defined by recursion on lines, existence and uniqueness |
| C96 | AtmoInfiniteEvolution | invariant: the screen is the strip at the whole part of the position, the random numbers of the next line are ready; counterexamples on 2 x 2 screens |
| C97 | AtmoInfiniteEvolutionUpDown | simulation by one list of layers with renumbered random vectors; counterexamples |
| C98 | calc_psf | discrete Fourier transform over the reals: inversion and Parseval; every law read off one closed formula |
| C99 | PSF | invariant over the frames; triangle inequality and its case of equality; averages |
| C100 | PsfCoronagraph | linearity of the transform, energy of the residue, witnesses with two pixels |
| C101 | Coronagraph and its subclasses | Parseval on the padded array, windowed sums, linearity in field and mask |
| C102 | make_mask, CircularMask, AnnularMask | squares of rational coordinates, symmetry of the coordinate vector, witnesses by computation |
| C103 | calc_geometry, calc_psf_geometry, calc_psf_sampling | floor, ceiling and half-even rounding of rationals; parity |
| C104 | compute_radial_profile, compute_fwhm_from_profile, compute_encircled_energy, get_encircled_energy_at_distance, metrics of PSF | partition of the samples into bins, telescoping areas, interpolation in a sorted list |
| C105 | compute_mmse_reconstructor, Intmat.generate_rec_mmse | matrices as functions acting on vectors, the cost as a square around the solution of the normal equations |
| C106 | demodulate_signal | polar form of the phased carriers, sums of roots of unity and their first moment |
| C107 | SH._set_in_ef, SH._calc_geometry | invariant of the search, closed form of the layout in terms of one integer, inequalities on ceilings and roundings; computation in `SpecFloat` for the counterexample |
| C108 | SH.trigger_code, post_trigger, _zeros_common; DistributedSH | invariant of the loop on rows (what was outside of the corner stays), discrete Fourier transform of the corner, Parseval, conjugation for the symmetry, disjoint slices; two concrete sensors for the counterexample |
| C109 | ModulatedPyramid | focal plane sampled at half-integer frequencies, where the prism and the mirrors are exact; reindexing of sums over pixels and over points of the modulation; Parseval; rounding lemmas of C103 for the sizes; concrete fields on 4 x 4 transforms for the counterexamples |
| C110 | PolyChromWFS | invariant of the session: fields of the sensors are the input plus their tilt, outputs their images; sums over pixels for the light; concrete 2 x 2 pupil for the counterexample |
| C111 | GainOptimizer | invariant of the session (histories are those of the frames, mean of the spectra is zero); argmin is the first of the smallest and does not change under scaling; closed form of one update; concrete one-mode sessions for the counterexamples |
| C112 | ZernikeGenerator | polynomials of a complex number and its conjugate: their derivative is a sum of polynomials of lower degree, by a recurrence of the coefficients; Noll's numbers as triangular numbers plus a rest; sums over numbers are sums over degrees and frequencies; equality of polar and complex forms |
| C113 | WaveGenerator, RandomGenerator | operations between vectors of k elements or one, element by element; radial order of C112; scaling of a sum of squares; sin, sign and asin of the standard library |
| C114 | IdealDerivativeSensor | gradient of affine, scaled and shifted sequences; filter of pixels with a derivative; mean of equal values |
| C115 | n_phot | first position of the minimum; powers of ten of the standard library |
| C116 | compute_petal_ifunc | one sector holds each angle; sums over the lit pixels of a petal; turning shifts the sectors |
| C117 | PyrPupdataCalibrator | thresholds of scaled and 0/1 images; columns of padded rows; a pixel near both centres exists |
| C118 | ShSubapCalibrator | rounding to even of two numbers that differ by an integer; spans of pixels as quotients; a product of widths is a square only if both are equal |
| C119 | AtmoRandomPhase | closed form of seed and position by quotients of the number of the trigger; powers of products |
| C120 | PlotDisplay, PlotVectorDisplay, DataPlotter, DataPrint | invariant of a scrolling buffer: it holds the last elements of the sequence; lines drawn one after the other |
| C121 | FieldAnalyser | the first object of the replay is prop (from the proofs on targeted replays), keys made of numbers are distinct, then entry by entry |
| C122 | BaseSprintEstimator | induction on the samples with those pending; sums of products with orthogonal vectors |
| C123 | make_modal_base_from_ifs_fft | bilinear forms of combinations of vectors; orthonormality of the vectors of a decomposition |
| C124 | ExtendedSource | odd functions sum to zero on a symmetric grid; induction on the layers |
| C125 | CurvatureSensor, LaserLaunchTelescope | bounds of ceilings and of integer division; evaluation of the file |
| C126 | LowPassFilter, lpf_from_fc, lpf_from_fc_and_ampl | the value of a product of polynomials; stability triangle of sections |
| C127 | calc_spatialfrequency | slice assignment block by block; squares of distances; remainders of the shift |
| C128 | MatharAirRefraction | field identities for the gas law; inverses are decreasing for the dispersion; disjoint ranges for the tables |
| C129 | compute_chromatic_shifts | closed formula of a displacement; sign from the dispersion of C128 |
| C130 | SpotMonitor | sums of lists pixel by pixel; sorting commutes with translations; cases of the fit |
| C131 | ZernikeSensor.get_pyr_tlt | coordinates change sign under mirrors; squares instead of square roots |
| C132 | CiaoCiaoSensor | ring identities on pairs; scaling of sums |
| C133 | fsoc_lib | sums of squares of sines and cosines; triangle inequality |
| C134 | calc_noise_cov_elong | writes of different sub-apertures are independent; two by two inverses |

## Trusted base

* The Coq 8.16.1 kernel, including `vm_compute` where used.
* `Print Assumptions` reports "Closed under the global context" for every theorem listed
  in `MANIFEST.json`, except for the theorems about optical fields and signals, which use the real
  numbers of the standard library: C98, C99, C100, C101, C106, C108, C109, C112, C113, C115, C116, C117, C119, C133. For these it lists axioms of the
  standard library only: `ClassicalDedekindReals.sig_forall_dec`,
  `ClassicalDedekindReals.sig_not_dec` and
  `FunctionalExtensionality.functional_extensionality_dep` (the construction of the reals); for most of C106 and for `C133_still`, `C133_vectors` and `C133_direction_refuted` also
  `Classical_Prop.classic`.
  No file declares an axiom, parameter or section-less hypothesis. Seven more axioms of the standard library
  (`Coq.ssr.ssrunder.Under_rel.*`, which implement the `under` tactic) are loaded with
  the library modules used and appear in a listing of the whole environment; no theorem
  depends on them.
* The correspondence between the Python text and the Gallina model is by reading;
  nothing is extracted or run. Each definition cites the lines it mirrors, and the
  behaviour of Python and numpy it relies on is written down in `PyBase.v` and
  `NpModel.v`.
* The theorems were tested by editing the model: `seeded/LOG.jsonl` lists wrong edits of
  definitions. `failing_lemmas` is where the build stopped; `failed` are the theorems that
  use it, directly or through other lemmas: found with `Print Assumptions` for the edits made
  with `seeded/mut.py`, and by the names in the sources for the others, whose build stops at
  the first error. Four edits whose build was interrupted or ran out
  of time without an error (two of `AirModel.dry`, one of `CurvModel.grid_scale`, one of
  `ChromaModel.n_at`) are not listed. Part of the edits was made with `seeded/mut.py`, the others by random replacement
  of operators, constants, exceptions and variables.

## Disagreements found

Statements that one would expect from the API but which are false of the code, each with
a proof of a concrete witness:

* `C02_positive_delay_refuted`: The hypothesis on delays is needed: with a positive delay in a list of inputs a consumer is scheduled before its same-step producer.
* `C12_not_multiple_refuted`: The full claim is false: duration not a multiple of the step (no iteration is marked before an extra one is run)
* `C12_second_run_refuted`: second run of the same loop: no iteration is marked
* `C12_start_time_refuted`: start time different from zero: no iteration is marked
* `C13_optional_list_refuted`: An optional input list that is left empty does not count as unconnected: the object is never triggered.
* `C15_same_trigger_list_refuted`: Without the requirement on objects of the same trigger list the property fails.
* `C16_setup_refuted`: If setup() of a producer changes its output, consumers in other processes see the old value in their own setup().
* `C17_not_multiple_refuted`: Duration not a multiple of the step: last_iter is set one iteration too early (C12_not_multiple_refuted) and the reader of a delayed connection waits for ever.
* `C18_list_output_refuted`: An output that is a list of data objects is sent as several messages, of which the reader takes one: old values are read and messages are left over.
* `C18_no_iteration_refuted`: With no iteration at all the values sent after setup() are never received.
* `C19_attributes_refuted`: ... and attributes other than the value keep what they were in the first message (as the magnitude-dependent S0 of an electric field).
* `C19_resize_refuted`: ... an array that grows after the first message makes the receiver fail, one that shrinks is received in part, ...
* `C19_scalar_refuted`: Not true in general: a value that is missing at first and then a scalar never reaches the receiver, and the next message has the wrong format, ...
* `C20_collision_refuted`: Whatever the hash function, two different connections share a tag: one of the connections from the objects "o", "oa", "oaa", ... to the same input.
* `C20_names_refuted`: Names with a percent sign, and an output called "None", are mistaken for others.
* `C22_attributes_refuted`: So the copy is not the same as the producer in general: other attributes are stale, and between two GPUs even an array that changed its size is silently left as it was.
* `C23_last_iteration_refuted`: But the number of iterations used to recognise the last one can be too small by one: a run of 1.001 s in steps of 1 ms has 1001 iterations, and the 1000th is taken as the last one.
* `C23_multiple_refuted`: An integration time of 1.001 s is not accepted as a multiple of a time step of 1 ms.
* `C23_refuted`: 15 ns become 14 ns; a time step of 0.0157 s is taken as 15699999 ns, a total time of 1.001 s as 1000999999 ns.
* `C23_time_step_refuted`
* `C30_multirate_reset_refuted`
* `C30_stale_output_refuted`: With a fractional delay the output read right after a reset is still the old one.
* `C35_any_start_refuted`: an accepted start time for which the first window is too short, and one for which nothing comes out
* `C37_unsorted_refuted`: times that are not in increasing order are accepted, and the rule fails: at time 5 one switch time has passed but the first value set is still in force
* `C40_last_extra_refuted`: The store can contain a sample that is not among number 0, N, 2N, ...: 6 samples with N = 3.
* `C41_lost_refuted`: Samples are lost otherwise: 4 calls in chunks of 3.
* `C42_collision_refuted`: Two different times of the same run can be saved as the same time.
* `C45_pickle_refuted`: With single-precision pickle files the replay can differ from what was recorded.
* `C46_delayed_refuted`: Without these conditions the replay configuration can refer to removed objects: a delayed reference to a stored output is not redirected,
* `C46_list_refuted`: nor is a reference in a list,
* `C46_other_output_refuted`: an object with one stored output is removed although another output of it is used,
* `C46_two_stores_refuted`: and with two data stores only the last one is replaced: the signals of the first are neither in the data source nor redirected.
* `C47_declared_length_refuted`: it is not otherwise: a stop beyond the input, a negative step
* `C47_snapshot_refuted`
* `C49_neutral_mul_refuted`: it is not for the multiplication: elements without a partner become zero
* `C49_stale_refuted`: and if the size of the second vector varies, elements of earlier steps are used again
* `C50_longer_rejected_refuted`: commands longer than their slots are cut without an error
* `C50_second_chunk_refuted`: a second chunk of low-order commands cannot be used: the slot of the second output is not filled
* `C51_missing_is_zero_refuted`: A shorter command does not count as zero after a longer one: earlier elements stay.
* `C52_always_refuted`
* `C54_before_first_refuted`: a poke before the first mode is charged to the last mode
* `C54_several_refuted`: as many non-zero commands as slopes: divided element by element and charged to the first mode
* `C54_stale_refuted`: the calibrator for several sensors does not skip stale slopes: slopes of the first poke seen again after the command has changed
* `C55_estimate_above_one_refuted`: The estimate itself, which is an output too, is not limited to one.
* `C56_construction_refuted`: The full claim does not hold for interleaved vectors of odd size.
* `C56_resize_refuted`: After construction a vector of 3 slopes has the Y slopes 1 and 2; after a change of size to 3 the last element is neither an X nor a Y slope: the two do not agree.
* `C57_refuted`: Restoring an interaction matrix does not return the statistics, tags and factor.
* `C58_kinds_refuted`: A square interaction matrix with slope statistics is accepted as a pupil stop.
* `C58_m2c_refuted`: The normalisation factor of a modes-to-commands matrix is lost.
* `C58_pupdata_refuted`: The choice of slopes from intensity is lost.
* `C58_recmat_layer_refuted`: The assignment of modes to layers is saved but not restored.
* `C58_recmat_name_refuted`: A reconstructor saved under a name without extension is not found under that name.
* `C59_wide_refuted`: 4 x 10 pixels to 2 x 5: both factors are 2, and the frame is refused.
* `C61_output_stable_refuted`: With a positive integer delay the delayed output is a view of the delay buffer, which the preparation of the next step shifts: the output changes before the step runs.
* `C66_flux_refuted`: Binning does not collect the light of the block: 4 photons become 1.
* `C66_size_refuted`: 5 x 5 pixels binned by 4: one pixel, the mean of all 25.
* `C68_caller_unchanged_refuted`: The caller's parameters are modified: they are not those of the original simulation any more (see the input of dm in the example above).
* `C68_lists_kept_refuted`: An input that was a list with one stored element loses the other elements.
* `C69_intmat_refuted`: An interaction matrix instead of a reconstructor: it is used as it is, not inverted, so that its slopes are refused unless it is square; asking for a number of modes fails at construction.
* `C70_selected_mode_refuted`
* `C71_negative_start_mode_refuted`: A negative start mode is accepted and keeps the last modes.
* `C71_negative_start_refuted`: Cutting from the last two modes, counted from the end, leaves no mode.
* `C72_wide_refuted`: Resampling 4 x 4 pixels to 1 x 2 fails.
* `C73_dark_refuted`: Claim: a frame without light gives zero slopes.
* `C73_negative_norm_refuted`: Claim: slopes are proportional to the inverse of the normalisation factor.
* `C73_padding_refuted`: Claim: index arrays padded with -1, whose pupils have different numbers of pixels, are accepted.
* `C73_shlike_refuted`: Claim: the option shlike can be used. Without a normalisation factor it is rejected, and with the factor zero, the only one accepted, no slope is a number.
* `C74_dark_refuted`: Claim: a frame without light gives zero slopes.
* `C74_neighbour_refuted`: Claim: the slopes of a sub-aperture depend on its pixels only. They become zero if another sub-aperture is much brighter.
* `C75_layout_refuted`: Claim: like the subtraction of the reference, filtering gives the same X and Y slopes in both layouts.
* `C75_one_column_refuted`: Claim: a matrix applied to the slopes that does not give as many values as there are slopes is rejected. A matrix with one column is accepted, and all slopes become equal.
* `C76_first_window_refuted`: Claim: every complete window contains the same number of frames. The first one also contains the frame at time zero.
* `C76_missed_end_refuted`: Claim: a window ends with the first frame after its length has passed. It only ends with a frame at a multiple of its length.
* `C77_symmetric_refuted`: Claim: the points are always symmetric about zero.
* `C78_counts_refuted`: Claim: the counts of the curvature sensor are those of the two images. Pixels without light count as one.
* `C78_zernike_dark_refuted`: Claim: the Zernike signals of a frame without light are numbers.
* `C79_display_refuted`: Claim: the array for display is the phase of the pixels with light minus their mean, and zero elsewhere. Here the pixels with light have phases 1 and 3.
* `C79_product_default_refuted`: Claim: the default of the argument subrect of product means all of the other field.
* `C79_reset_refuted`: Claim: reset gives amplitude one and phase zero whatever the field contains. A value that is not a number stays.
* `C79_small_refuted`: Claim: the product with a smaller field is rejected. With the position that the propagation uses for a layer one or two pixels smaller, the corner pixel of the layer is applied everywhere.
* `C79_sub_idx_refuted`: Claim: a part given as a list of pixels contains those pixels. The last row and column are lost.
* `C80_rectangle_refuted`: Claim: fields of the same shape and pitch can be combined.
* `C81_gpu_reads_refuted`: Claim: the kernel reads only from the array.
* `C81_last_refuted`: Claim: changing the number of pixels keeps the last pixel.
* `C81_shift_refuted`: Claim: without coordinates, a shift by one pixel moves the pixels by one.
* `C82_chromatic_refuted`: Claim: an on-axis star is displaced by the chromatic shift of a high layer.
* `C82_parity_refuted`: Claim: on axis the centre of the layer is seen, whatever the numbers of pixels.
* `C82_rectangle_refuted`: Claim: on axis, a layer symmetric from left to right is seen symmetric.
* `C82_shift_refuted`: Claim: a layer accepted at setup covers the whole pupil.
* `C82_small_refuted`: Claim: a layer smaller than the pupil is rejected.
* `C83_backwards_refuted`: Claim: the wind may blow backwards.
* `C83_extra_refuted`: Claim: any extra time is accepted or rejected when the object is made (here the first triggers pass with little wind and a later one fails).
* `C83_periodic_refuted`: Claim: screens are periodic: the layer after one screen of wind is at the same position.
* `C83_sampling_refuted`: Claim: the same wind shows the same screen however often the atmosphere is triggered.
* `C84_negative_refuted`: Claim: a pupil can be at a position with negative coordinates.
* `C84_outer_refuted`: Claim: screens with another L0 are not given.
* `C84_pitch_refuted`: Claim: screens with another pixel pitch are not given.
* `C84_position_refuted`: Claim: layers cover a pupil away from the centre (8 m, on both sides).
* `C84_small_refuted`: Claim: layers are not smaller than the pupil.
* `C84_total_refuted`: Claim: Cn2 profiles add up to one within one millionth.
* `C85_both_refuted`: Claim: with a single input and a list, the outputs of the list hold its modes.
* `C85_cut_refuted`: Claim: the analysis leaves the influence function given to it as it was.
* `C85_list_refuted`: Claim: fields given as a list are analysed.
* `C85_pixels_refuted`: Claim: an inverse influence function can be cut to fewer modes (here as many as pixels).
* `C85_priority_refuted`: Claim: given both influence functions and inverse, the number of modes is obeyed.
* `C86_default_refuted`: Claim: update_parameters may be called without a magnification, or after nothing was to be done.
* `C86_rectangle_refuted`: Claim: an interpolator made for a rectangular field works.
* `C86_shallow_refuted`: Claim: planes go on beyond the pupil wherever some line through two of its pixels meets the pixel.
* `C86_shift_refuted`: Claim: a shift along x does not change a phase that is constant along x.
* `C86_stale_refuted`: Claim: when the pupil changes, its pixels keep their own phase.
* `C86_update_refuted`: Claim: update_parameters keeps the shifts that are not given.
* `C87_before_refuted`: Claim: before the first time the phase keeps the sign of the screens.
* `C87_crop_refuted`: Claim: a cube larger than the pupil, with its pitch, is shown by its central pixels; a symmetric screen by a symmetric phase.
* `C87_name_refuted`: Claim: sources may have any names.
* `C87_rectangle_refuted`: Claim: screens may be rectangles.
* `C87_single_refuted`: Claim: one screen alone is shown.
* `C88_set_refuted`: Claim: new values with the time last, as given at the beginning, are kept as at the beginning.
* `C88_times_refuted`: Claim: new times are refused unless there are as many as before.
* `C89_gain_refuted`: ... so the recursion with the latest gain fails for it.
* `C89_keep_refuted`: With a last coefficient equal to zero a channel that the new gain does not reach is silenced.
* `C89_one_for_all_refuted`: A vector of one gain is not spread over the channels, while one-element inputs are.
* `C89_protected_refuted`: A gain that is not one number stops the integrator: the error is not absorbed.
* `C90_load_refuted`: A loaded file is stamped but not used.
* `C90_number_refuted`: A new number of frames arriving with the trigger: as many frames as before are taken, and their sum is divided by the new number.
* `C90_protected_refuted`: A wrong value on an interactive input stops the simulation.
* `C90_reset_time_refuted`: A reset changes the dark frame without stamping it.
* `C90_restart_refuted`: After a second trigger the dark frame is not the mean of the n frames that follow it.
* `C91_class_refuted`: A slope null is not found when it is loaded by the name of its class.
* `C91_end_refuted`: Nothing is written, and the end fails, when no frame arrived, or when the file has no directory.
* `C91_multi_refuted`: With a relative directory: the end fails although the directory exists; and where it can be written, an old file is not noticed at the start, so that a second run fails only at its end.
* `C91_twice_refuted`: Finalizing twice divides twice.
* `C92_data_dir_refuted`: A class that is not in the table of directories cannot have a data_dir argument, even when the parameter is given.
* `C92_output_reference_refuted`: A reference to an output of an object is accepted when objects are ordered, and then not found.
* `C92_reference_elsewhere_refuted`: An object mentioned by an object of another process is not found there, although the simulation can be built alone.
* `C92_tag_elsewhere_refuted`
* `C93_list_refuted`: An output that is a list arrives as a single item.
* `C93_shared_refuted`: A data object present in all processes: the configuration runs in one process, not in two.
* `C93_type_refuted`: The class of a value that comes from another process is not checked.
* `C94_elsewhere_refuted`: A DataBuffer placed in another process.
* `C94_empty_refuted`: An output that is an empty list.
* `C94_order_refuted`: The order of the objects matters: outputs of a DataBuffer exist only after it.
* `C94_twice_refuted`: Two entries with the same name: the first one is lost, without a message.
* `C96_cn2_refuted`: "What the constructor and the setup accept runs": a list Cn2 shorter than the list of heights is accepted.
* `C96_diagonal_sampling_refuted`: "A layer does not depend on the number of triggers": it does with a wind along neither axis.
* `C96_range_refuted`
* `C96_reversal_refuted`: "When the wind turns back the layer comes back": it does not.
* `C97_ahead_refuted`: "The upward layers are those of a simulation with the upward extra times": not even when all steps are equal.
* `C97_down_second_refuted`: "The downward layers do not depend on the upward ones": they do when an upward extra time is smaller.
* `C97_up_refuted`: "With equal extra times the upward and the downward layers are the same": the upward ones start from the screens already moved, and are one step ahead.
* `C99_strehl_bounded_refuted`
* `C100_average_flat_phase_refuted`: With unequal amplitudes and a flat phase the average does not remove everything.
* `C100_core_blind_to_waves_refuted`
* `C100_core_dark_axis_refuted`: The other formula leaves light on the axis, and depends on how the phase is wrapped.
* `C101_photons_refuted`
* `C102_centre_on_pixel_refuted`: so the pixel nearest to the requested centre need not be lit, although without the option it is
* `C102_obstruction_square_refuted`: a square one keeps the edge of its obstruction
* `C103_largest_refuted`: the largest accepted field is checked before the repetitions only
* `C104_width_refuted`: when the peak is not in the middle the line can be followed outside of the image
* `C105_inverse_refuted`: but correlations below 1e-10, however large relative to the variances, are dropped
* `C105_trust_refuted`: so a sensor that is four times noisier is trusted four times more
* `C106_ramp_refuted`: but in one pass it is: a drift alone has an amplitude
* `C106_tone_refuted`: it is wrong: one period of four samples has 5/8 of the power
* `C107_defaults_refuted`: the default oversampling of SH is 2 (sh.py:105), that of DistributedSH 0 (distributed_sh.py:27): left at their defaults, the two interpolate the same field to different sizes
* `C107_fits_refuted`: with fewer pixels than subapertures the field of view that is asked for may not fit in the transforms
* `C107_rounding_refuted`: with 64 bit floating point numbers a pixel can be lost: a row of the interpolated field of 47 pixels, oversampled twice for 8 subapertures, has 95 pixels instead of 96 and cannot be split
* `C108_distributed_refuted`
* `C108_shared_refuted`: sensors with different numbers of pixels for each subaperture that share arrays disturb each other: after the first sensor, the first of two subapertures of the second, equally lit, gets four times the light of the other
* `C109_amplitude_refuted`: the amplitude of the modulation is not in units of wavelength / diameter: the tilt is one wavelength between the centres of the first and of the last samples, not across the diameter
* `C109_default_given_refuted`: a default number of steps on a line is refused when it is given
* `C109_few_steps_refuted`: the default number of steps can be less than 2 pi times the amplitude
* `C109_odd_refuted`
* `C109_one_step_refuted`: one step on a line cannot be used, though it is the default up to one half
* `C109_pupil_size_refuted`: otherwise it does not: here 400/52 pixels instead of 10
* `C109_single_point_refuted`: a single point of a circular modulation, the default for small amplitudes, is off the axis
* `C110_tilt_refuted`: The tilts asked are therefore not those of the fields given to the sensors.
* `C111_max_stable_refuted`: a larger gain that is stable may exist among those that would have been tried
* `C111_optical_refuted`: the optical gain doubles between two optimisations, and the gains are the same as if it had not changed
* `C111_safety_refuted`: the gain leaves the safety factor times the best gain
* `C112_derivative_zero_refuted`: number zero is refused for values, and accepted for derivatives
* `C113_accepted_fails_refuted`: arguments that are accepted, with every frame failing
* `C113_all_forced_refuted`: the requested rms is not that of the amplitudes when all modes are forced to zero; an unknown law is then accepted
* `C113_two_values_refuted`: the square wave has a third value, at the edges
* `C114_additive_refuted`: hence they are not linear
* `C114_mean_refuted`: the slopes are not the means of the gradients over the lit pixels: pixels with a zero gradient are left out
* `C114_one_pixel_refuted`: a geometry with one pixel per sub-aperture measures nothing
* `C114_outside_refuted`: a position outside the grid may be accepted
* `C115_J_refuted`: bands of the second table
* `C115_last_refuted`: the wavelength of its last band is taken for the one before
* `C116_special_refuted`: one pixel, at -135 degrees from the centre of the frame, in two petals
* `C117_obstruction_refuted`: a uniform image of eight rows and eight columns is found to have an obstruction
* `C117_rows_refuted`: rows need not hold corresponding pixels once a pixel is lost
* `C118_odd_refuted`: With an odd size this is false: for 3 lenslets on 10 pixels the limits of the middle one, 3.5 and 6.5, are both rounded to the even number, which leaves 2 pixels instead of 3, and the calibration of a uniform image fails.
* `C118_overlap_refuted`: with 5 lenslets on 8 pixels, of 2 pixels each, there are not enough of them
* `C119_interval_refuted`: A square is not kept for the whole interval, nor is a seed used for all its squares: in the second round the two triggers of the first square come from two seeds, and the first of them is never shown again.
* `C119_name_refuted`: The name of a source may not hold "layer" after an underscore: with "layer1", the field of out_layer1_layer is looked for under the name out_ef1_ef.
* `C120_failure_refuted`: lines are lost at the first failure, and do not come back
* `C120_iterations_refuted`: with a history of one element the number of the iteration stays 1
* `C120_width_refuted`: values never given are drawn when the number of values changes
* `C121_distinct_refuted`: sources closer than a tenth of an arcsecond get the same results
* `C121_inverse_refuted`: results for influence functions and for their inverses, of the same name, are in the same file
* `C121_modal_refuted`: results of other parameters are taken for those asked for
* `C121_two_sources_refuted`: two sources given by rows are not the sources given
* `C122_kept_refuted`: with a forgetting factor below 1, parameters that give exactly the corrected measure are not kept
* `C123_filt_modes_refuted`: The modes given to be filtered are not removed: here the only mode of the basis is the mode to be filtered.
* `C123_no_zernike_commands_refuted`: Without Zernike modes the commands do not give the modes: here the commands of a mode are all zero.
* `C124_disc_light_refuted`: A small disc has no point at all, so that its light is lost.
* `C124_psf_centre_refuted`: An image as wide as a step, with its light in the middle, gives one point that is not in the middle.
* `C124_threshold_light_refuted`: The light of the points removed by the threshold is lost: the fluxes do not add to one any more.
* `C125_cut_refuted`: A field of view larger than the grid is not given whole: here two pixels out of ten.
* `C125_llt_no_position_refuted`: A telescope without a position is restored with one.
* `C126_default_refuted`: A low-pass filter with the default order and without an amplification cannot be made.
* `C126_negative_refuted`: A negative frequency is accepted, and the filter is not stable: its pole is outside the unit circle.
* `C127_last_refuted`: The null frequency is not in the last element, as documented.
* `C128_nearest_refuted`: Between the ranges, and above them, the table of K is used, far from its range: the index at 30 micrometres, above the range of Q, does not use the table of Q.
* `C130_success_refuted`: With bounds of alpha that include zero, a frame reported as a success can have a model of zeros and the guesses as parameters: the fit gave an alpha of zero, and the exception of its width came after the success was recorded.
* `C131_size_refuted`: For an odd focal plane the mask is one pixel smaller than it.
* `C133_direction_refuted`: The direction is not that of the effective wind: with the object at rest, a wind of 1 m/s at 90 degrees has a direction of 45.
* `C134_flux_refuted`: The fluxes of the sub-apertures do not change the diagonal matrix: twice the flux does not give the diagonal of the full matrix without elongation.

## Modelled code

Lines cited by the models (a cited range is modelled up to the simplifications stated in
the comment of the definition):

| file of /repo | lines cited | model |
|---|---|---|
| `specula/__init__.py` | 25 | `PolyModel.v` |
| `specula/base_data_obj.py` | 33, 36-135 | `ConnModel.v`, `PolyModel.v` |
| `specula/base_processing_obj.py` | 40-43, 59-60, 62-89, 91-103, 122-153, 155-206, 233-244, 246-257, 267 | `ConnModel.v`, `DistModel.v`, `LoopModel.v`, `PolyModel.v`, `WireModel.v` |
| `specula/base_time_obj.py` | 20, 72-73, 75-76 | `PsfModel.v`, `SecondsModel.v` |
| `specula/base_value.py` | 7-37, 43-55, 57-70 | `ConnModel.v`, `ExtSrcModel.v`, `FitsModel.v` |
| `specula/calib_manager.py` | 15-82, 84-94, 96-110, 134-138, 162 | `BuildModel.v`, `CalFileModel.v` |
| `specula/connections.py` | 6-150 | `ConnModel.v`, `DistModel.v`, `LoopModel.v`, `WireModel.v` |
| `specula/data_objects/electric_field.py` | 14-75, 79-93, 98-106, 108-119, 125-134, 137-159, 161-203, 205-213, 232-263, 322-341 | `FieldModel.v`, `FitsModel.v`, `FocalModel.v`, `PsfModel.v` |
| `specula/data_objects/ifunc.py` | 19-98, 204-211, 213-218 | `FitsModel.v` |
| `specula/data_objects/ifunc_inv.py` | 6-47, 50-80, 87-101 | `FitsModel.v` |
| `specula/data_objects/iir_filter_data.py` | 23-72, 107-122, 126-132, 164-195, 482-534, 585-605, 744-773, 788-816, 818-851, 853-921, 923-973 | `DynModel.v`, `FilterModel.v`, `FitsModel.v`, `LpfModel.v`, `OptModel.v` |
| `specula/data_objects/infinite_phase_screen.py` | 39, 47-50, 102-121, 154-167, 175-189, 191-200, 202-226, 232-234 | `InfModel.v` |
| `specula/data_objects/intensity.py` | 13-65, 67-86 | `FitsModel.v`, `WindowModel.v` |
| `specula/data_objects/intmat.py` | 41-79, 91-98, 100-112, 114-123, 137-143, 145-155, 161-176, 185-245, 250-270 | `CalibModel.v`, `CutModel.v`, `FitsModel.v`, `MmseModel.v`, `RecModel.v` |
| `specula/data_objects/laser_launch_telescope.py` | 45-65, 73-85, 94-112 | `CurvModel.v` |
| `specula/data_objects/layer.py` | 13-50, 53-75, 77-102 | `FitsModel.v`, `PropModel.v` |
| `specula/data_objects/lenslet.py` | 37-49 | `ShGeomModel.v`, `SubapCalModel.v` |
| `specula/data_objects/m2c.py` | 16-29, 49-50, 64-78, 80-90 | `CutModel.v`, `FitsModel.v` |
| `specula/data_objects/pixels.py` | 13-58, 79-88, 109-127, 129-149 | `DarkModel.v`, `FitsModel.v` |
| `specula/data_objects/pupdata.py` | 13-58, 73-74, 124-137, 139-166 | `FitsModel.v`, `SlopecModel.v` |
| `specula/data_objects/pupilstop.py` | 17-60, 78-100, 102-134, 136-149 | `FitsModel.v` |
| `specula/data_objects/recmat.py` | 14-28, 56-60, 75-83, 89-104 | `CutModel.v`, `FitsModel.v`, `RecModel.v` |
| `specula/data_objects/slopes.py` | 17-36, 38-42, 44-52, 56-76, 78-83, 85-111, 124-128, 130-143, 145-165, 167-191, 219-250, 252-266, 268-278 | `FitsModel.v`, `SlopesModel.v` |
| `specula/data_objects/source.py` | 17-71, 73-84, 95-130, 168-170, 172-190 | `FitsModel.v`, `PropModel.v` |
| `specula/data_objects/spatio_temp_array.py` | 16-67, 73-90, 96-98, 100-149 | `CubeModel.v` |
| `specula/data_objects/ssr_filter_data.py` | 173-191, 193-231, 233-279, 362-441 | `SsrDataModel.v` |
| `specula/data_objects/subap_data.py` | 16-52, 58-60, 62-65, 75-85, 87-103 | `FitsModel.v`, `SlopecModel.v`, `SubapCalModel.v` |
| `specula/data_objects/time_history.py` | 33-49 | `FitsModel.v` |
| `specula/display/base_display.py` | 59-68, 100-106 | `PlotModel.v` |
| `specula/display/data_plotter.py` | 91-113 | `PlotModel.v` |
| `specula/display/plot_display.py` | 23-31, 37-44, 46-54, 56-155 | `PlotModel.v` |
| `specula/display/plot_vector_display.py` | 56-84, 94-100, 102-130, 132-160, 210-213, 224-239 | `PlotModel.v` |
| `specula/field_analyser.py` | 79-96, 98-112, 114-154, 156-168, 170-185, 188-210, 212-243, 265-320, 322-365, 367-397, 399-443, 552-582, 601-627, 632-658, 741-800 | `FieldAnModel.v` |
| `specula/lib/air_refraction.py` | 19-21, 32-86, 97-208 | `AirModel.v`, `ChromaModel.v` |
| `specula/lib/calc_geometry.py` | 49-97 | `GeomModel.v` |
| `specula/lib/calc_noise_cov_elong.py` | 188-234, 236-343 | `ElongModel.v` |
| `specula/lib/calc_phasescreen.py` | 91 | `FreqModel.v` |
| `specula/lib/calc_psf.py` | 15-69, 72-105, 108-163 | `GeomModel.v`, `PsfModel.v` |
| `specula/lib/calc_spatialfrequency.py` | 4-36 | `FreqModel.v` |
| `specula/lib/compute_petal_ifunc.py` | 5-138 | `PetalModel.v` |
| `specula/lib/demodulate_signal.py` | 9-170 | `DemodModel.v` |
| `specula/lib/extrapolation_2d.py` | 11-125, 163-176, 184-344, 346-372, 374-378, 380-462 | `ExtrapModel.v` |
| `specula/lib/fsoc_lib.py` | 3-16, 19-49, 52-71 | `FsocModel.v` |
| `specula/lib/interp2d.py` | 10-35, 57-100, 115-246, 248-327 | `InterpModel.v` |
| `specula/lib/make_mask.py` | 3-5, 7-136, 138-140 | `FocalModel.v`, `MaskModel.v` |
| `specula/lib/make_xy.py` | 136-168 | `FocalModel.v`, `PyrModel.v`, `SlopecModel.v`, `SubapCalModel.v` |
| `specula/lib/mask.py` | 120-144, 317-318, 360-379 | `MaskModel.v`, `ZernModel.v` |
| `specula/lib/mmse_reconstructor.py` | 2-137 | `MmseModel.v` |
| `specula/lib/modal_base_generator.py` | 72-175, 177-373 | `KlBaseModel.v` |
| `specula/lib/modal_pushpull_signal.py` | 87-126 | `GenModel.v` |
| `specula/lib/n_phot.py` | 8-207, 212-246, 249-262, 271-280 | `PhotModel.v` |
| `specula/lib/phasescreen_manager.py` | 8-54 | `ScreenModel.v` |
| `specula/lib/radial_profile.py` | 35-47, 51-65, 69-107, 120-158, 160-165, 168-207 | `RadialModel.v` |
| `specula/lib/rebin.py` | 39-45, 47-58 | `RebinModel.v` |
| `specula/lib/toccd.py` | 26-30, 33-86 | `FocalModel.v`, `RebinModel.v` |
| `specula/lib/utils.py` | 119-121, 123-135, 315-336, 344-359 | `BuildModel.v`, `ConnModel.v`, `FocalModel.v`, `PyrModel.v`, `RebinModel.v` |
| `specula/lib/zernike_generator.py` | 77-105, 137-145, 147-157, 159-177, 179-191, 243-247, 281-316, 318-366, 385-402, 404-422 | `ZernModel.v` |
| `specula/loop_control.py` | 25-33, 35-42, 44-167, 169-177 | `ConnModel.v`, `DistModel.v`, `LoopModel.v`, `PolyModel.v` |
| `specula/processing_objects/abstract_coronagraph.py` | 76-89, 109-112, 124-134, 139-140, 142-162, 164-185, 213-225 | `FocalModel.v` |
| `specula/processing_objects/apodizer_coronagraph.py` | 45, 60, 79-83, 112-140 | `FocalModel.v` |
| `specula/processing_objects/atmo_evolution.py` | 72-154, 166-230, 233-249, 253-264, 266-304, 307-372 | `AtmoModel.v`, `ScreenModel.v` |
| `specula/processing_objects/atmo_evolution_up_down.py` | 93-177 | `AtmoModel.v` |
| `specula/processing_objects/atmo_infinite_evolution.py` | 77-81, 129-156, 168-176, 178-179, 201-213, 215-230, 232-248, 250-317 | `InfModel.v` |
| `specula/processing_objects/atmo_infinite_evolution_up_down.py` | 129-190, 192-208 | `InfModel.v` |
| `specula/processing_objects/atmo_propagation.py` | 93-94, 96-104, 114-119, 123-150, 158, 278-306, 328-392, 394-422, 424-472, 474-510 | `ChromaModel.v`, `FieldModel.v`, `PropModel.v` |
| `specula/processing_objects/atmo_random_phase.py` | 62-138, 166, 169-178, 184-220 | `RandPhaseModel.v` |
| `specula/processing_objects/base_filter.py` | 31-52, 67-103, 123-144, 147-149 | `FilterModel.v`, `MultirateModel.v` |
| `specula/processing_objects/base_generator.py` | 18-29, 45-48, 50-71 | `GenModel.v`, `WaveModel.v` |
| `specula/processing_objects/base_inserter.py` | 38-62, 64, 76-80 | `VecModel.v` |
| `specula/processing_objects/base_operation.py` | 51-92, 114-144, 146-187 | `VecModel.v` |
| `specula/processing_objects/base_slicer.py` | 18-29, 32-44, 54-64 | `VecModel.v` |
| `specula/processing_objects/base_sprint_estimator.py` | 134-165, 236-261, 291-297, 299-330, 332-389, 401-468, 474-477, 479-482, 484-518 | `SprintModel.v` |
| `specula/processing_objects/ccd.py` | 123-131, 210-211, 247-263, 265-329 | `RebinModel.v`, `WindowModel.v` |
| `specula/processing_objects/ciao_ciao_sensor.py` | 89-116, 141-148, 207-223, 225-244 | `CiaoModel.v` |
| `specula/processing_objects/cur_wfs_slopec.py` | 112-132 | `SlopecModel.v` |
| `specula/processing_objects/curvature_sensor.py` | 63, 99-118, 154-158, 174-203, 206-218 | `CurvModel.v` |
| `specula/processing_objects/data_buffer.py` | 14-85 | `DistModel.v`, `StoreModel.v`, `WireModel.v` |
| `specula/processing_objects/data_print.py` | 36, 48-50, 58, 61-98, 102 | `PlotModel.v` |
| `specula/processing_objects/data_source.py` | 20-93 | `StoreModel.v` |
| `specula/processing_objects/data_store.py` | 62-104, 109, 118-121, 127-131, 166-171, 193-261 | `DistModel.v`, `StoreModel.v` |
| `specula/processing_objects/demodulator.py` | 14-44, 54-71, 73-106 | `OpticalModel.v` |
| `specula/processing_objects/distributed_sh.py` | 42, 49-62, 135-138 | `ShImageModel.v` |
| `specula/processing_objects/dm.py` | 94-143, 161-179 | `AnalysisModel.v`, `DmModel.v` |
| `specula/processing_objects/double_roof_slopec.py` | 48-59 | `SlopecModel.v` |
| `specula/processing_objects/dynamic_dark_calibrator.py` | 94-123, 156-173, 175-208 | `DarkModel.v` |
| `specula/processing_objects/dynamic_iir_filter.py` | 70-85 | `DynModel.v` |
| `specula/processing_objects/dynamic_integrator.py` | 79-94 | `DynModel.v` |
| `specula/processing_objects/dynamic_pyr_pupdata_calibrator.py` | 122-146, 148-155, 157-173 | `PupCalModel.v` |
| `specula/processing_objects/electric_field_combinator.py` | 17-30, 42-83, 85-105 | `FieldModel.v` |
| `specula/processing_objects/electric_field_reflection.py` | 28-45 | `FieldModel.v` |
| `specula/processing_objects/extended_source.py` | 107-127, 129-144, 146-150, 152-178, 180-221, 223-238, 257-288, 307-353, 370-380, 382-406, 420-480, 494-616, 618-661, 663-670, 672-684, 686-699, 709-734 | `ExtSrcModel.v` |
| `specula/processing_objects/focal_plane_filter.py` | 44-51 | `FocalModel.v` |
| `specula/processing_objects/four_quadrant_coronagraph.py` | 50-64 | `FocalModel.v` |
| `specula/processing_objects/gain_optimizer.py` | 24-37, 55-89, 100-127, 129-190, 192-218, 220-241, 243-305 | `OptModel.v` |
| `specula/processing_objects/ideal_derivative_sensor.py` | 20-49, 96-134, 136-226 | `DerivModel.v` |
| `specula/processing_objects/iir_filter.py` | 55-56, 58-61, 73-102, 104-108 | `DynModel.v`, `FilterModel.v` |
| `specula/processing_objects/im_calibrator.py` | 48-50, 54-55, 60-61, 160-184, 198-202 | `CalFileModel.v`, `CalibModel.v` |
| `specula/processing_objects/integrator.py` | 36-53 | `DynModel.v`, `FilterModel.v` |
| `specula/processing_objects/linear_combination.py` | 51-82, 85-117 | `VecModel.v` |
| `specula/processing_objects/low_pass_filter.py` | 13-36 | `LpfModel.v` |
| `specula/processing_objects/lyot_coronagraph.py` | 63-80 | `FocalModel.v` |
| `specula/processing_objects/mirror_commands_combinator.py` | 14-66, 81-110 | `VecModel.v` |
| `specula/processing_objects/modal_analysis.py` | 20-98, 116-161, 163-170, 172-221 | `AnalysisModel.v` |
| `specula/processing_objects/modalrec.py` | 14-104, 131-160, 162-208, 210-231 | `RecModel.v` |
| `specula/processing_objects/modalrec_implicit_polc.py` | 28-78, 93-107, 109-113 | `RecModel.v` |
| `specula/processing_objects/modalrec_multirate.py` | 40-98, 100-126, 128-167 | `RecModel.v` |
| `specula/processing_objects/modulated_pyramid.py` | 17-28, 208-235, 263, 269, 271-274, 281-283, 306-366, 368-371, 396-399, 425, 427-443, 448-455, 457-529, 539, 545-546, 556-566, 570-577, 580-588, 591, 597-600, 612-622 | `PyrModel.v` |
| `specula/processing_objects/multi_im_calibrator.py` | 113-137, 139-160 | `CalibModel.v` |
| `specula/processing_objects/multi_rec_calibrator.py` | 48-52 | `CalFileModel.v` |
| `specula/processing_objects/multirate_complementary_filter.py` | 50-53 | `MultirateModel.v` |
| `specula/processing_objects/mvm.py` | 13-33, 43-53, 55-65 | `AnalysisModel.v` |
| `specula/processing_objects/optical_gain_estimator.py` | 19-58, 76-86, 88-109, 111-125 | `OpticalModel.v` |
| `specula/processing_objects/phase_flattening.py` | 40-76 | `FieldModel.v` |
| `specula/processing_objects/phase_screen_cube.py` | 18-106, 108-124, 126-140, 152-163 | `CubeModel.v` |
| `specula/processing_objects/poly_chrom_sh.py` | 30-65 | `PolyModel.v` |
| `specula/processing_objects/poly_chrom_wfs.py` | 15-50, 60-83, 85-116, 118-123, 125-151, 153-159, 161-182, 184-191 | `PolyModel.v` |
| `specula/processing_objects/poly_crom_pyramid.py` | 44-83 | `PolyModel.v` |
| `specula/processing_objects/psf.py` | 114-116, 156-167, 169-182, 184-192, 196-213, 215-233, 261-269, 280-285 | `PsfModel.v`, `RadialModel.v` |
| `specula/processing_objects/psf_coronagraph.py` | 116-121, 123-188, 190-201, 209-214, 224-230 | `PsfModel.v` |
| `specula/processing_objects/push_pull_generator.py` | 25-67, 69-70 | `GenModel.v` |
| `specula/processing_objects/pyr_pupdata_calibrator.py` | 147-193, 195-234, 236-273, 275-325, 327-359, 361-501, 590-595 | `CalFileModel.v`, `PupCalModel.v` |
| `specula/processing_objects/pyr_slopec.py` | 26-64, 81-88, 94-97, 99-144, 146-149 | `SlopecModel.v` |
| `specula/processing_objects/random_generator.py` | 27-90, 92-142, 144-156 | `WaveModel.v` |
| `specula/processing_objects/rec_calibrator.py` | 39-40, 58-61, 63-68 | `CalFileModel.v` |
| `specula/processing_objects/schedule_generator.py` | 18-41, 43-53 | `GenModel.v` |
| `specula/processing_objects/sh.py` | 73-96, 118-163, 176-330, 349-366, 375, 378, 450-516, 519-527, 542-543, 546, 564-567, 575-583 | `FocalModel.v`, `ShGeomModel.v`, `ShImageModel.v` |
| `specula/processing_objects/sh_slopec.py` | 32-87, 120-166, 168-180, 182-303 | `SlopecModel.v` |
| `specula/processing_objects/sh_subap_calibrator.py` | 31-37, 52-67, 69-75, 77-123 | `CalFileModel.v`, `SubapCalModel.v` |
| `specula/processing_objects/slopec.py` | 30-75, 96-127, 132-146 | `SlopecModel.v` |
| `specula/processing_objects/sn_calibrator.py` | 22-41, 51-56, 58-66 | `CalFileModel.v` |
| `specula/processing_objects/spot_monitor.py` | 114-138, 141-158, 160-238 | `SpotModel.v` |
| `specula/processing_objects/ssr_filter.py` | 57-77 | `FilterModel.v` |
| `specula/processing_objects/time_history_generator.py` | 26-32 | `GenModel.v` |
| `specula/processing_objects/vibration_generator.py` | 136-141 | `GenModel.v` |
| `specula/processing_objects/vortex_coronagraph.py` | 57-72 | `FocalModel.v` |
| `specula/processing_objects/wave_generator.py` | 10-78 | `WaveModel.v` |
| `specula/processing_objects/windowed_integration.py` | 23-41, 51-66 | `WindowModel.v` |
| `specula/processing_objects/zernike_sensor.py` | 46-75 | `ZernSensModel.v` |
| `specula/processing_objects/zwfs_slopec.py` | 81-94 | `SlopecModel.v` |
| `specula/simul.py` | 69-72, 129-171, 173-175, 199-200, 202-220, 222-245, 247-276, 278-282, 284-309, 311-335, 337-614, 616-650, 652-709, 717-859, 861-885, 887-934, 1143-1149 | `BuildModel.v`, `DistModel.v`, `LoopModel.v`, `NamesModel.v`, `ParamsModel.v`, `TagModel.v`, `TrigOrderModel.v`, `WireModel.v` |

## Not modelled

Everything else. Files without any modelled line:

* `specula/`: template_processing_obj.py
* `specula/data_objects/`: convolution_kernel.py, gaussian_convolution_kernel.py, simul_params.py
* `specula/display/`: double_phase_display.py, modes_display.py, phase_display.py, pixels_display.py, pixels_pup_display.py, psf_display.py, pupil_display.py, slopec_display.py
* `specula/lib/`: ELT_M1_ifunc_calculator.py, compute_zern_ifunc.py, compute_zonal_ifunc.py, display_server_api.py, platescale_coeff.py, process_utils.py, synim_utils.py
* `specula/processing_objects/`: avc.py, ciao_ciao_slopec.py, display_server.py, ext_source_pyramid.py, im_sh_synim_generator.py, lift.py, modulated_double_roof.py, power_loss.py, specula_input.py, sprint_pyr.py, sprint_sh_synim.py, terminal_input.py
* `specula/scripts/`: parse_classes.py, specula_main.py, web_frontend.py

Across the modelled files the following is left out: GPU code paths (`xp = cupy`, streams and
graphs), printing and progress reports, memory accounting, displays, the construction of
numpy data types, and rounding of floating-point numbers except where stated.
