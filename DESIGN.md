# Formal model of SpeysideHEP/spey in Rocq

The code under /repo is read as text only. Nothing in it is run or changed.
All paths below are relative to `/repo/src/spey` unless they start with `rocq/`.

## 1. Shape of the development

For each area there are up to four files in `rocq/theories`:

* `<Area>Model.v`  - the model: total Gallina functions that follow the Python branch by branch,
  exceptions as values, each definition citing file and lines. No proofs.
* `<Area>Spec.v`   - (where useful) a small specification written without reference to the model's helpers.
* `<Area>Proofs.v` - lemmas.
* `<Area>Props.v`  - only property theorems (`Theorem ... . Proof. exact lemma. Qed.`), each followed by
  `Print Assumptions`, and an `Example` showing that the hypotheses are met by a concrete non-trivial case.

Theorems ending in `_refuted` show that the English property is false of the faithful model, with a concrete
witness. Theorems ending in `_partial` prove the part that holds. A property with a `_refuted` theorem is
reported as `partial` in MANIFEST.json, with the witness described in section 4.

## 2. Modelling conventions

* Python exceptions are values of a result type. A loop without a static bound becomes recursion on fuel with a
  separate "out of fuel" value; theorems then show that enough fuel exists (termination) or that no fuel is
  enough (non-termination).
* Real-number code is modelled over Coq's `R` (exact arithmetic). Where NaN or infinities select a branch they
  are explicit constructors. Rounding is not modelled.
* Mutable Python objects whose aliasing matters (option lists, suggested starting points, loggers, shared
  distribution objects, cache tables) are modelled as explicit state or a heap with addresses.
* External routines (scipy minimisers and root finders, random generators, the wrapped user function, the file
  system, the hash function) are parameters of the theorems; what is assumed about them is written in the
  theorem statement.

## 3. Plan per property
* **C01** Cached calls are transparent in every sequential history. CacheModel: atomic sections as functions on (table, order, events); sequential call = enter;compute;finish. Induction over histories against the uncached function.
* **C02** The cache never outgrows maxsize and evicts first-in first-out. Same model; refinement to a FIFO list specification.
* **C03** A failing computation leaves no trace. Same model; the except branch restores the state exactly.
* **C04** Concurrent callers only ever receive the function's own value for their key. CacheConc: small-step machine over threads; invariant by induction over schedules (any interleaving, clears included).
* **C05** One computation per key at a time. Same machine; invariant when nothing is evicted or cleared; refutation by a concrete schedule otherwise.
* **C06** A caller waiting for someone else's computation is always woken. Same machine; every blocked waiter's event is owned by a live computation when nothing is evicted or cleared; refutation schedules (clear; eviction).
* **C07** The cache raises no error of its own. Reentrant sequential machine; refutation by recursion of depth three with maxsize 1; partial for non-reentrant calls.
* **C08** Spelling of a call does not matter, and different arguments never share an entry. CacheKeyModel: values, tokens, binding; normalisation theorem; collisions refuted; injectivity on the fragment without mixed containers.
* **C09** Test statistics are non-negative and vanish where they must. TestStat over R with the log-likelihood as an arbitrary function.
* **C10** The two upper-limit statistics agree exactly when the fit is physical. Same.
* **C11** Test-statistic names resolve to exactly the documented set. String case analysis for all strings.
* **C12** The transformed statistic is continuous and monotone in the observed statistic, and fails only when it must. Real analysis of the piecewise formula.
* **C13** CLs p-values are well formed. pvalues over R; Gaussian distribution function constructed with Coquelicot (GaussModel).
* **C14** Expected p-values are ordered across the sigma bands. Log-concavity of the Gaussian distribution function.
* **C15** Toy p-values are the empirical tail fractions. Lists of reals, counting.
* **C16** Exclusion confidence levels are probabilities of the documented shape. Decision logic with NaN constructors.
* **C17** Significance and its p-value are consistent. Gaussian distribution function.
* **C18** The bracket search for the upper limit terminates with a usable bracket. Fuelled loops; explicit bound on iterations; refutation for a zero start.
* **C19** The reported upper limit solves CLs = 1 - CL or is infinite. Root finder as oracle with contract.
* **C20** Upper-limit results have the documented shape and labels. List shape.
* **C21** Every reported crossing is genuine, ordered and distinct. Crossing scan over grid values with NaN; root finder oracle.
* **C22** No crossing visible on the grid is missed. Same.
* **C23** Refining the global minimum never makes it worse. Fold over grid values, optimiser oracle.
* **C24** chi2_test widens its window boundedly and reports in-window crossings. Window state machine.
* **C25** A fixed POI value is inside the bounds used for its fit. Bounds arithmetic over R with optional ends.
* **C26** Fixing several parameters keeps every bound well formed. Same; refuted by inverted bounds.
* **C27** Parameter renaming is a simultaneous renaming and all-or-nothing. List-of-strings model of the Python loop; swap refuted.
* **C28** POI keys resolve to the parameters they name. Association lists.
* **C29** Rescaling POI bounds only widens the POI bound. Refuted (tuple stored as bound).
* **C30** A parameter reference resolves to an in-range non-POI parameter or raises. Names and integers; name path refuted.
* **C31** A fit fixes exactly what was asked. fit() up to the call of the minimiser.
* **C32** A fit leaves its inputs and the model untouched. Heap model with aliasing; refuted.
* **C33** Retrying a fit widens the window and keeps the POI's lower bound. Retry loop with oracle outcomes.
* **C34** Optimiser options are filtered exactly. Association lists.
* **C35** return_nll selects the scale of every likelihood result. Backend record with optional overrides.
* **C36** Calculator availability reflects what the backend implements. Model of Python attribute lookup and method equality.
* **C37** Preparing a fit leaves the caller's constraint list alone. Heap model of lists.
* **C38** Excluded cross section is the POI limit times the cross section. Direct.
* **C39** Asimov data use the documented signal hypothesis. Direct, all strings.
* **C40** A combiner never holds two models with one name. Operation histories.
* **C41** Combination leaves its operands alone and is associative. Algebra on lists of models.
* **C42** The combined likelihood is the product of the members' likelihoods. Sum with NaN.
* **C43** The combined minimum POI is safe for every member. Maximum.
* **C44** Items of a combiner are addressable by position and name or raise AnalysisQueryError. Python indexing.
* **C45** The most sensitive model is found. numpy integers vs int; refuted.
* **C46** The combined fit starts inside its own bounds. Weighted mean; refuted for the non-negative fit.
* **C47** A successfully registered backend can be used. Registry of classes/entry points; refuted.
* **C48** Registration is exclusive and all-or-nothing. Histories.
* **C49** Log-probabilities of independent terms add. Lists.
* **C50** A constant covariance and a constant covariance function give the same likelihood. Determinant clip; refuted.
* **C51** Evaluating a likelihood at one parameter point is unaffected by evaluations at others. Shared mutable mean; sequential proof, interleaving refuted.
* **C52** Constraint types are accepted case-insensitively. Strings; refuted.
* **C53** The minimum POI is exactly the non-negativity threshold. Lists of reals.
* **C54** config() honours allow_negative_signal and poi_upper_bound. Refuted for non-default upper bound.
* **C55** The parameter vector layout is consistent. Layout arithmetic.
* **C56** The number of signal parameters is ignored for plain signal yields. Refuted.
* **C57** A model is alive exactly when it has a non-zero signal yield. Refuted for negative-only signal.
* **C58** Pseudo-data can be drawn from every constructible model. Index arithmetic; refuted with modifiers.
* **C59** The likelihood of a dataset depends only on its observed bins. Prefix lemma.
* **C60** Nuisances keep the expected background non-negative. Refuted.
* **C61** Effective-sigma reduces to the symmetric Gaussian and is always a positive width. Reals; refuted below the clip.
* **C62** Signal-uncertainty factors are positive, neutral at zero and monotone. Reals.
* **C63** Signal-uncertainty parameters are contiguous, disjoint and counted exactly. Layout arithmetic; name clash refuted.
* **C64** The third-moment expansion reproduces the requested moments. Trigonometric solution of the cubic.
* **C65** The third-moment correlation matrix is a correlation matrix reproducing the covariance. Quadratic; diagonal refuted.
* **C66** compute_third_moments returns the third moments of the bifurcated Gaussian. Gaussian moments; refuted (raw moment about the mode).
* **C67** Covariance and correlation conversions are inverse. Matrices as functions on indices.
* **C68** Merging bins conserves everything and rejects bad groups. Finite sums; overlap refuted.
* **C69** ExpectationType comparison is an equivalence compatible with hashing. Strings and members; refuted.
* **C70** The contour threshold is the chi-squared one. Direct; refuted (factor two).
* **C71** Radial contour points lie on the contour and inside the bounds. Root finder oracle, linear ray.
* **C72** Walked contour points lie on the contour and inside the bounds. Walk as fold over oracle draws; first point and unconverged points refuted.
* **C73** Discovered basins are distinct, sorted and dominate every start. Sort and filter.
* **C74** Sparse seeds are the requested number of most isolated points. Slicing; n_seeds = 0 refuted.
* **C75** Contour coordinates and full parameter vectors correspond. Index embedding.
* **C76** Log capture restores the logger whatever happens. Logger state machine with nesting.
* **C77** Initialising logging replaces the existing handlers. List mutation during iteration; refuted.
* **C78** Update information is fetched at most once a day and survives crashes. File-system state machine with failures.
* **C79** The minimiser is chosen as documented. FitModel: the branch on the minimiser name; all strings.
* **C80** Requested parameters are reported under their own keys. InterfaceModel: association lists of requested parameters and what fit returns.
* **C81** The Asimov estimate of the uncertainty on the signal strength is positive. InterfaceModel: the formula over R with the clip; refuted for mu <= 0.
* **C82** Combining two models pairwise. CombinerModel / InterfaceModel.combine: record equality on name, cross section, toys.
* **C83** Looking up a backend does not depend on earlier look-ups. RegistryModel: histories of look-ups; refuted for classes without a name.
* **C84** set_optimiser selects the optimiser of later fits or changes nothing. RegistryModel: state machine of set_optimiser and fits.
* **C85** log_once logs a message once. RegistryModel: bounded memory of messages (lru_cache of size ten); refuted.
* **C86** The expectation type selects the data. DefaultModel: selection of the dataset, all expectation values.
* **C87** The objective is minus the log-probability. DefaultModel: objective = minus log-probability, pointwise.
* **C88** Asimov data are best described by the parameters that generated them. DefaultProofs: convexity of the Poisson and Gaussian terms; minimum at the generating parameters.
* **C89** Expected yields follow the documented formula. DefaultModel: expected yields bin by bin for every background model.
* **C90** The contour's degrees of freedom are the distinct parameters requested. ContourModel: number of degrees of freedom; refuted for repeated indices.
* **C91** Bracketing along a ray terminates. ContourModel: expansion loop with fuel; bound on the number of steps.
* **C92** find_contour rejects exactly the invalid requests. ContourModel: validation branches, exact characterisation.
* **C93** Contours can profile the remaining parameters. ContourModel: constraints as scipy objects or dictionaries; refuted.
* **C94** Contour results are labelled consistently. ContourModel: flags of the result, exact characterisation.
* **C95** The contour does not depend on the number of jobs. ContourModel: permutation of job outputs; results sorted by index.
* **C96** Whitening makes the profiled likelihood isotropic. WhitenModel (mathcomp matrices over any real field): L^T F L = I.
* **C97** The whitened matrix is the profiled information. WhitenModel: Schur complement equals the inverse of the inverse's block.
* **C98** No captured log message is lost. LogModel: capture context with an exceptional exit; refuted.
* **C99** Logging never raises. LogModel: formatting of records; refuted for malformed ones inside capture.
* **C100** Every handler shows the message once decorated. LogModel: mutable record passed through a list of handlers; refuted for two.
* **C101** The asymptotic exclusion level is one minus the asymptotic CLs. ExclSpec: closed form in terms of the fits only; ExclProofs unfolds the model to it.
* **C102** The toy exclusion level is one minus the ratio of tail fractions. ExclSpec: counting toys; same.
* **C103** The chi-square exclusion level depends on the likelihood ratio only. ExclSpec: exact value; refutation by two models with one likelihood ratio.
* **C104** The upper-limit search starts where documented. UpperSpec.start_at / missing; exact start for every call; documented formula refuted.
* **C105** The one-sided bracketing helper returns a bracketed root or NaN. UpperSpec.walks (declarative walk) against bracket_and_solve; NaN and double zero refuted.
* **C106** The upper limit agrees with the exclusion confidence level. UpperSpec.level shared by exclusion and limit; monotonicity from LevelSpec.one_sided (C132).
* **C107** chi2 is minus twice the log of the likelihood ratio. ProfileModel.chi2 over Fl; refuted for the default fit range.
* **C108** A chi2 scan is the list of chi2 values of its points. ProfileModel with Flocq rounding to single precision; error bound; refuted.
* **C109** The pull is the signed square root of the test statistic. ProfileModel.pull; refuted for dictionaries and at the best fit.
* **C110** The interval of a profile with one minimum is the set of values below the threshold. IntervalProofs: induction over the windows of ScanModel.scans; closed form for a parabola.
* **C111** Every crossing of the threshold inside the scanned window is returned. Refuted with a cosine profile and the default number of scan points. Proved for scans fine enough to tell the crossings apart: a zero lies in a cell with a sign change, the solver's bracket contains it, and merging moves it by at most the merge distance.
* **C112** A two-sided interval contains the best fit. Refuted with a profile that has two wells. Proved for profiles of any shape fitted at their lowest point: with an odd number of scan points the fit is one of them, so some cell on either side changes sign, in the first window or after widening.
* **C113** An existing end of the interval is found. IntervalProofs, section Fallback: invariants of the walking loops; refuted for a narrow interval.
* **C114** A combination reports the calculators all its members share. CombinerModel; for every list of members; refuted for the empty one.
* **C115** Each contour coordinate carries its parameter's name and limits. GapProofs over ContourModel.find_contour, for every selection of parameters.
* **C116** Contour walks start in the directions covered least. GapSpec says what least covered means; GapProofs: the sort in _find_gap_starts selects exactly those.
* **C117** Samples for a tested value are drawn from the model fitted at that value. InterfaceModel.fixed_poi_sampler over the fit oracle; by cases on the number of parameters and on size.
* **C118** The Hessian width is the documented variance. InterfaceSpec defines matrix inverse; InterfaceMatrix: its entries are unique; refuted, the code takes a square root.
* **C119** A log message is shown with the label of its level. LogSpec.shown_as says what a shown line is; LogProofs relate the formatter and capture to it.
* **C120** A cached method runs on the object it is called on. AccessModel: heap of objects with addresses that are reused, wrappers, descriptor tables, weak references; invariant over all histories.
* **C121** Each instance has one private cache per cached method. AccessProofs: refinement, the calls of one object and method are a run of the sequential cache of CacheModel.
* **C122** Overriding a cached method works as for any method. AccessSpec.defines is the method resolution order; invariant that stored wrappers belong to the defining class; refuted for super() with a __dict__.
* **C123** A model that is no longer used is freed. Reachability in AccessModel; partial for objects with a __dict__, refuted without by induction over the later history.
* **C124** Cached results reflect the present contents of the model. AccessModel.Mutate; refuted, partial after cache_clear.
* **C125** The log level selects the messages shown. StartupModel.python_int, set_log_level; StartupSpec.integer is Python's grammar of integers as a relation; by cases and induction on the text.
* **C126** The update check reports how installed and latest versions compare. StartupModel parses versions and decodes any JSON; StartupSpec.precedes is the precedence of semver.org as a relation; proved equivalent to the comparison used.
* **C127** Importing the package is harmless. import_spey composes the log level, the cache file of WebModel and the check.
* **C128** Every installed backend is available under its name. backend_table is a dictionary comprehension over a list in arbitrary order.
* **C129** about() lists every backend once, under its distribution. Grouping and sorting; order independence by uniqueness of sorted lists.
* **C130** The bibliography of a backend is complete. BiblioModel: loops over a network that may change its mind; invariant relating output, requests and metadata.
* **C131** cite() returns both entries, renaming only the key. Regular expression search and str.replace on lists of characters; BiblioSpec.occurs and join.
* **C132** The exclusion level grows with the signal strength. LevelSpec.falls; CLs is monotone in both statistics by a Mills-ratio inequality for the Gaussian integral.
* **C133** Likelihoods of models with linear yields are convex. Objectives of DefaultModel on ConvexSpec.mix; concavity of ln, quadratic forms.
* **C134** Models with linear yields have one best fit and growing exclusion levels. Profiles of convex functions, then C132.
* **C135** Gaussian counting experiments get the textbook exclusion levels and limits. The objective is a parabola; its statistics in closed form; limits by C106 and C132.
* **C136** The units of the signal do not matter. BinsSpec.in_units on experiments; objective in closed form, substitution in the profile, C106 for levels and limits.
* **C137** Combining independent experiments is the same as one model with all their bins. BinsSpec.stack; induction over the experiments, profiles of sums of functions of separate parameters; C42 for the combiner.
* **C138** The order of the bins does not matter. BinsSpec.in_order for a permutation; sums and quadratic forms over permuted indices.
* **C139** Control regions without signal do not change exclusion levels. C137 with a part whose profile is constant.
* **C140** Answers of fits keep what was fixed, stay inside the bounds and come with their own value. EngineModel.fit_full with scipy and Minuit as parameters, their promises in EngineSpec; from C31-C33; witnesses against it.
* **C141** Fits that do not converge are reported. The log is part of the result of EngineModel.fit_full; induction over the attempts; a witness that the answer is silent.
* **C142** Calls leave Python's warnings as they found them. WarnModel: the warnings module as state of the process, calls as programs; induction over programs, and over nested interleavings of threads; a schedule against the general claim.
* **C143** Warnings issued during a computation are not lost. WarnSpec.issued says what a program issues; invariant: log and active recorder together hold it; witnesses for failing calls and for fits.
* **C144** What is given for a backend arrives at the backend. WrapModel.wrapper with an arbitrary constructor as parameter; the keyword arguments passed are characterised by membership.
* **C145** Names of combined models stay distinct when models are renamed. WrapModel.rename acts on all combiners that share the object; case analysis, and a general counterexample.
* **C146** Poisson counting experiments get the textbook expected levels and limits. The objective is a sum of l - n ln l; Asimov data are fitted exactly by ln z < z - 1; the statistic in closed form; limits by C106, existence by the intermediate value theorem.
* **C147** Counting experiments get the textbook observed levels and significances. Case analysis on an excess or a deficit in one bin; C17 for p-values.
* **C148** More events never make an exclusion stronger. In one bin the closed form of C147 falls with the count; in several, more events turn the log-likelihood towards larger strengths, and convexity orders the statistics and the fits; monotonicity of CLs (C132).
* **C149** More signal, less background or another bin never makes an experiment expect less. The closed forms are monotone bin by bin (concavity of ln, log-sum inequality).
* **C150** The default backends agree where their assumptions coincide. BuildModel models the four constructors; agreement of yields and penalties bin by bin gives agreement of everything observable; the root of the documented quadratic equation near C = 0 for third moments.
* **C151** Uncorrelated background uncertainties give closed-form expected levels and limits. WidthProofs: each bin's profiled term is minimised at the root of a quadratic or at the constraint (ln z <= z - 1 and a completed square); levels by C106; limits exist by continuity and by convexity in the strength.
* **C152** Larger background uncertainties never strengthen an expected exclusion. The excess at a shift of the backgrounds is available to the less certain model at no higher price; minima are ordered, hence levels and limits.
* **C153** Asimov data are those of the hypothesis they stand for. Closed form of the conditional fit; data that a strength predicts exactly have this strength as their only best fit; refuted for discovery and for post-fit limits.
* **C154** The choice of the optimiser does not change expected exclusion levels. Closed forms of C151 with and without the positivity constraint; refuted where it is active.
* **C155** Background uncertainties of the Poisson backend free the backgrounds as documented. Best yield of each bin over the allowed nuisance parameters, hence the profile, the statistic and the levels in closed form; refuted against the documented constraint.
* **C156** The uncertainty of the signal strength is what error propagation gives. First and second partial derivatives of the log-likelihoods computed with the derivative rules of Coq.Reals, unique; row equations of the inverse of minus the Hessian solved for the entry of the strength; refuted for experiments without events.
* **C157** spey.math returns the negative log-likelihood, its gradient and the observed information. Partial derivatives of a Poisson likelihood with linear yields and a quadratic penalty computed once and matched with each backend; non-negativity by completing squares; at a fit by the vanishing derivative at a minimum along each coordinate.
* **C158** Confidence intervals of a Gaussian measurement are those of the textbook. The likelihoods of C135 are parabolas, sigma_mu is their width by C156, and the scan of C110 finds the crossings; a second scan lemma for windows that start at zero; the fallback followed step by step for the refutation.
* **C159** The contour encloses the region whose confidence level was asked for. On the line through a minimum below the threshold a convex function is below it up to the crossing and above it beyond; the run of find_contour followed with one minimum for completeness; Gaussian likelihoods expanded along the line, with the linear term vanishing at the fit.
* **C160** Confidence intervals of counting experiments are the likelihood-ratio intervals. The derivative of the ratio rises with the strength and is non-negative at the best fit; x - ln(1 + x) bounded below on either side of 0 shows that the threshold is passed within 27 (9 for one bin) initial half-widths of the fit, and that the fit is within one of zero if zero is not excluded; then the scans of C110 and C158. Yields below the floor of the Poisson distribution make the profile of one bin flat, hence crosses_once in C110.
* **C161** A bracketing search reports where it has been. The history is the last ten of the evaluations that returned, by induction on the calls; the search with its histories refines the loops of C18, which keep only the last point.
* **C162** Likelihoods are probabilities of the data, and the expected data are their mean. The exponential series per bin, iterated over the bins; the Gaussian integral (from the square of the error function, differentiated under the integral sign) per coordinate, after a triangular change of variables for correlated data.
* **C163** A mixture averages the probabilities of its components and draws from them. The sum of the logarithms is the logarithm of the product, which is below the average of numbers between 0 and 1; indexing of the table of samples.
* **C164** Walks along the contour keep their speed and later passes start where points are sparsest. Projections in an inner-product space; the passes unfolded by induction with everything found so far as invariant; the k-th distance characterised by counting.
* **C165** Asymmetric uncertainties move the background by what was given. Expected yields with a strength of zero; the width squared is linear in the nuisance parameter, solved for the backgrounds where it is right.
* **C166** Signal uncertainties change the signal by what was given. Expected yields at strength one, the documented factor of C62 at plus and minus one.
* **C167** Pseudo-data follow the model they are drawn from. The distributions scipy is asked to draw from, bin by bin, compared with the exponential of the likelihood (C49); the auxiliary part compared with the constraint terms.
* **C168** The significance of a region with an uncertain background is the textbook one. The profile of C151 for any data, solved bin by bin; without an excess, a shifted background describes the data as well as any signal; monotonicity from the minimum over the pull.
* **C169** A fit finds the strength that describes the data best. The bounds `fit` hands to the minimiser come from the model of the configuration; convexity (C133) carries the best of the range to all strengths if it is not at the end; at the end, the exact description of the data outside the range is strictly better. For Gaussian measurements the statistic of a fit cut at 10 vanishes up to 2 mu0 - 10, and with it the exclusion beyond 50%.
* **C170** The fit of a combination finds the common strength that describes all data best. The summed likelihood of C41 is convex if the members' are (those of the default backends are, C133); best fits at the inside of a range are best everywhere; the range is that of C46.
* **C171** The best point of a contour is the best point inside the limits. `_find_mle` as a call of the interface model's maximize_likelihood with the strength fixed to one; the first basin is no worse than any candidate (C73); its coordinates traced back to the slots of the fitted vector.
* **C172** Confidence intervals with uncertain backgrounds contain what the data do not disfavour. The objective is jointly convex (C133), so its profile along any parameter is convex and crosses a level above its minimum once on either side; with this the intervals of C110 and the default upper limit (C158) apply. At a fixed strength and with independent uncertainties one shift changes one bin only, whose cost crosses levels once although it is not convex where the yield is cut off.
* **C173** Confidence intervals of combinations contain what the data do not disfavour together. The summed likelihood of C41 is convex if the members' are (C172 for those with default backends), so C110 applies; for Gaussian members the sum is the parabola of the weighted mean.
* **C174** More confidence never gives a smaller limit or a narrower interval. Upper limits: where the level reaches the larger target it has passed the smaller (C132), so of two brackets the later cannot end before the earlier begins; an infinite limit means the level at the cap is below the target. Intervals: the set below the threshold grows with the threshold (C110). Refuted at confidence level zero.
* **C175** Expected upper limits are ordered across the sigma bands. The same comparison of brackets, with the ratio of Gaussian tails strictly monotone in the band.
* **C176** No strength below the best fit is excluded beyond 50%, and no limit lies below it. There the statistic vanishes and CLs = 1/2 over a probability; a root of level minus target with both ends below the best fit cannot bracket the target.
* **C177** Data that are as expected give the median expected result. With equal likelihood ratios the transformed statistic is zero, the median band; the function whose root is searched is then the same, so the limits are equal for every root finder. That data equal to the backgrounds have these fits is C146 (counting) and C151 (uncertain backgrounds).
* **C178** A fit of Gaussian bins returns their weighted mean. The objective is a parabola (C135), or the cost of one Poisson bin; the configuration of the simple backends is modelled, and the minimum over its range is the closest point of the range. Refuted at both ends of the range.
* **C179** The update check relies on successful answers of the index. Imports one after the other over the models of the cache directory and of the import; invariant: the directory is empty or holds the answer to the last request that got one. Refuted for errors with a JSON body.
* **C180** Combining never weakens the expected exclusion. The combined Asimov NLL is the sum of the members' (C42); sums of functions that rise from zero rise at least as fast as each of them, wherever the fit lands; levels grow with the statistic (C149), limits as in C152. Refuted for post-fit data of an excess (C153) by convexity: the sum with a slowly rising member still has its minimum away from zero.
* **C181** The upper limit is a strength excluded at the level asked for. The statistic is continuous where the likelihood is, also at the best fit; the two branches of the qtilde distribution meet; the intermediate value theorem on the bracket C19 gives. Default backends by convexity of their profiles (C133). Refuted by a jump: a bound on the ratio of two Gaussian tails.
* **C182** More data never make an experiment expect less. At the same nuisance parameters the Poisson part of the NLL is multiplied by the factor and the constraint is not; minima are compared (C152). For counting experiments the statistic is multiplied by the factor, and lies between quadratic and linear in the strength.
* **C183** Options of a combination arrive at the members they are for. Keyword arguments as lists of names and values, calls with two dictionaries as in Python; members that answer for exactly the arguments they should get. Refuted for names given twice.
* **C184** A slice of a combination is the members it names. Model: the index arithmetic of Python's slices of a tuple. Specification: the set of selected places by their bounds and divisibility, which with the order fixes the result.
* **C185** What callers do with an answer never changes a later answer. Model: a heap of containers shared by reference, deep copies, the cache, and callers who can make, take and write entries of what they hold. Proof: an invariant separating the addresses of cached objects from those callers can reach.
* **C186** Adjusting a configuration does not change the model. Model: configurations referring to lists by address, calls that hand out or make lists, and writes by callers. Proof: an invariant that the lists of the model are below the addresses of lists made for callers; refuted for the shared ones.
* **C187** A fit at a given strength has exactly one solution. Uniformly continuous functions on boxes of any dimension have a lowest point (by induction on the dimension), a positive form grows in every direction (its lowest values on the faces of a cube), so that the negative log-likelihood, which is bounded below but for the form, has a lowest point; only one because it is strictly convex. Refuted for matrices that are not positive.
* **C188** maximize_likelihood has an answer, and just one. The profile exists (C187) from a little below zero strength on, is convex (C133) and therefore continuous, and grows at least linearly, because a bin costs at least half of what it expects and the penalty of its parameter grows faster than that. For the range that maximize_likelihood searches, strength and background parameters are varied together over a box, points outside of the region where the likelihood is defined are moved into it continuously, and the lowest point over the box is the answer. For uncertainties of other kinds the allowed parameters are a closed part of a box, over which a continuous function has a lowest point (by nested choices of coordinates, with excluded middle). Strict convexity leaves one answer.
* **C189** Contour directions are scaled by the curvature at the minima. Two environments that differ in the curvature only, and agree at all full vectors that are profiled minima, give the same result; by extensionality of the loop over basins.
* **C190** Data without events are no evidence for a signal. Without events each bin costs its yield, which does not decrease with the strength at fixed background parameters, and every parameter allowed at one strength is allowed at all; so the profile does not decrease and q0 is zero.

## 4. Findings

Behaviour of the code that contradicts a property, its documentation, or what a caller would expect. Each has a
machine-checked witness (the theorem named). "Model" below always means the faithful reading of the code.

Cache (`system/cache.py`)
* `cache_clear()` or the eviction of an in-flight marker lets a second computation of a key start and leaves threads
  waiting for the first one blocked for ever (`C05_one_computation_per_key_refuted`, `C06_waiters_always_woken_refuted`);
  a function that calls itself with the same arguments deadlocks (`C06_self_call_blocks_refuted`).
* Nested calls with `maxsize=1` end in `IndexError` from `popleft` (`C07_no_own_error_refuted`).
* `[1]`/`(1,)`, `1`/`1.0`/`True`, `{}`/`[]` share a cache entry; dictionaries with incomparable keys raise `TypeError`
  (`C08_distinct_arguments_refuted`).
* `StatisticalModel` has `__slots__` only, so its cached methods live in the descriptor's table, whose callables hold the
  object: a model used once is never freed (the weak reference clean-up can never run).
* For subclasses with a `__dict__` the callable is stored under the method's name in it: a copy of the object runs methods on
  the original; after `super().method()` the override is bypassed; with a cached override `super().method()` is the override
  itself and waits for itself; two threads at the first use get two caches.
* Results computed before a change of the model in place are returned after it until `cache_clear()`.

Hypothesis testing
* `expected="all"` lets a NaN confidence level through, although NaN is handled everywhere else
  (`C16_nan_reported_for_all_refuted`).
* The chi-square calculator's level is not a function of the likelihood ratio; the linear/quadratic switch is the
  reverse of the asymptotic one, and it returns five expected values where one is documented (`C103_*`).
* A non-positive explicit `hig_init` makes the upper-limit search loop for ever (`C18_zero_start_never_ends_refuted`,
  `C18_negative_start_never_ends_refuted`); a start that is exactly the limit raises `ValueError`
  (`C19_exact_start_raises_refuted`).
* The documented start `mu_hat + 1.5 sigma` is not what is used for negative or tiny `mu_hat`; an explicit start of `0`
  is treated as missing when the other end is `None` (`C104_documented_start_refuted`).
* `expected="observed"` as a string raises `IndexError` in the upper limit (`C20_string_expectation_refuted`).
* A signal that is excluded already at 1e-10 gets the limit infinity, as one that is never excluded (`C106_all_excluded_refuted`).
* `bracket_and_solve` hands NaN values to the root finder, whose `ValueError` escapes, and returns NaN when both ends
  are exact roots (`C105_nan_values_refuted`, `C105_exact_zeros_refuted`).
* The crossing scan misses a zero beside a non-finite grid value and the last of two adjacent zeros (`C22_*_refuted`).
* `_refine_global_min` ignores improvements below 1e-9 and keeps a NaN start (`C23_*_refuted`).
* `chi2_test` can return a limit outside the parameter's bounds (`C24_limit_outside_bounds_refuted`).
* `chi2` is negative for `mu < 0` with the default `allow_negative_signal=False` (`C107_default_negative_refuted`); scans
  are stored in single precision (`C108_scan_equals_single_refuted`).
* `pull` raises `TypeError` for the documented dictionary form, is `0` at `mu_hat` whatever the likelihood and NaN below
  the minimum (`C109_*_refuted`).
* `sigma_mu_from_hessian` documents a variance and returns the standard deviation (`C118_variance_refuted`); where the likelihood curves upward the result is NaN, and `sigma_mu` passes it on (`C118_saddle_refuted`).
* `sigma_mu` divides `mu` instead of `|mu - mu'|`: negative for `mu < 0`, zero at `mu = 0` (`C81_sigma_mu_refuted`).

Configuration and fits
* `fixed_poi_bounds` leaves a negative value outside its bound, ignores half-open bounds, and inverts the bound of a
  nuisance parameter fixed below the minimum (`C25_*`, `C26_inverted_bound_refuted`).
* Renaming parameters is sequential, not simultaneous, and not all-or-nothing (`C27_*_refuted`).
* An index and a name for the same parameter silently drop a value (`C28_value_lost_refuted`).
* `rescale_poi_bounds` without an upper bound stores a tuple as the upper end (`C29_upper_end_is_a_pair_refuted`).
* The POI is accepted as a nuisance parameter by name (`C30_poi_name_accepted_refuted`).
* `fit` writes the pinned value into the list it was given, which may be the model's own suggested start
  (`C32_*_refuted`); the retry loop shrinks or inverts windows with negative upper ends and raises on open bounds
  (`C33_*_refuted`).
* `prepare_for_fit` extends the caller's constraint list in place (`C37_caller_list_refuted`).
* `return_nll` is ignored for backends with their own likelihood (`C35_return_nll_refuted`); every backend reports every
  calculator (`C36_availability_refuted`).

Combiner and registry
* A dictionary POI turns the negative-yield warning into `TypeError` (`C42_negative_yields_refuted`); an index below
  `-len` raises `IndexError` (`C44_far_negative_refuted`); `find_most_sensitive` always raises
  (`C45_never_found_refuted`); the fit can start outside its bounds (`C46_*_refuted`).
* Classes registered with `register_backend` cannot be used through `get_backend` (`C47_registered_unusable_refuted`).
* Pairwise combination loses cross section and toys (`C82_keeps_settings_refuted`).
* `log_once` repeats a message after ten others (`C85_log_once_refuted`).
* `chi2_test` scans three points by default (the documentation says 121 and 9 starts, the signature has 3 and 2), so a
  profile with several minima loses crossings (`C111_crossings_missed_refuted`); a missing side is searched around the
  fitted value even when a deeper minimum was found, so the interval can begin above the minimum
  (`C112_best_fit_outside_interval_refuted`). With an even number of scan points a narrow interval is stepped over by the
  scan and by the fallback search, which returns NaN (`C113_end_missed_refuted`).

Backends
* The clipped determinant makes constant and functional covariances differ (`C50_same_log_prob_refuted`); the shared
  mean is a data race (`C51_threads_refuted`); constraint types in another case raise `KeyError`
  (`C52_case_insensitive_refuted`).
* `config()` ignores `allow_negative_signal` unless the upper bound is exactly 10 (`C54_config_refuted`); documented-as-
  ignored signal parameters are added (`C56_no_effect_refuted`); `is_alive` is false for negative-only signal
  (`C57_alive_refuted`); sampling with modifiers raises `IndexError` (`C58_modifiers_refuted`).
* The simple backends use auxiliary entries of a dataset as data (`C59_simple_refuted`); the registered non-negativity
  constraint is `b(1 + theta)`, not `b + theta sigma` (`C60_constraint_refuted`); small effective sigmas are enlarged
  (`C61_symmetric_refuted`); synthesised names can repeat (`C63_names_distinct_refuted`).
* Third moments: the correlation matrix never has a unit diagonal, loses the sign of a covariance
  (`C65_*_refuted`), and `compute_third_moments` is about the mode (`C66_central_refuted`).
* With vanishing third moments the expansion does not reduce to the covariance model as documented: its correlations are smaller
  (`C150_no_skew_refuted`).
* Overlapping merge groups are accepted and double count (`C68_overlap_rejected_refuted`).
* Fixing parameters is a constraint for scipy: with a method that takes none (`L-BFGS-B`, `Nelder-Mead`, …) the fixed strength is
  fitted, silently (`C140_method_refuted`); Minuit ignores the constraints of the model (`C140_minuit_constraints_refuted`); a
  fit that failed is only reported in the log (`C141_answer_silent_refuted`).
* A model can be given a name another member has: both then get the same Asimov data (`C145_taken_name_refuted`).

Contours
* The threshold misses a factor one half (`C70_threshold_refuted`); radial points leave the bounds when the fit is
  outside them (`C71_bounds_refuted`); the first walked point is unchecked and unconverged points are returned
  (`C72_*_refuted`); `n_seeds=0` returns everything (`C74_zero_seeds_refuted`); repeated indices are counted twice
  (`C90_duplicates_refuted`); profiling fails with scipy constraint objects (`C93_profiling_refuted`); the documented
  inverse of the whitening is wrong (`C96_documented_coordinate_refuted`).
* `multiparameter/multiparam.py` imports a module that does not exist in the package (seen by reading, not modelled).

Logging and network
* `init` leaves every other handler attached (`C77_one_handler_refuted`); captured messages are lost on an exception
  (`C98_lost_refuted`); a malformed record raises inside `capture_logs` (`C99_malformed_refuted`); two handlers show the
  prefix twice (`C100_two_handlers_refuted`).
* Overlapping calls of two threads leave a warning hook nobody reads (`C142_threads_refuted`); warnings are lost when a call
  raises, and the combiner's about negative yields whenever it is fitted (`C143_failing_call_refuted`, `C143_fit_refuted`).
* A failed cache write still deletes the earlier caches, and two processes can delete each other's file
  (`C78_failed_write_refuted`, `C78_race_refuted`).
* SPEY_LOGLEVEL above 3, or no integer, breaks the import (`C125_environment_refuted`); the pinned version is not recognised as
  a prerelease, and a beta never hears of a newer version (`C126_*_refuted`); two packages with one backend name race through
  the order of a set (`C128_order_refuted`).
* A connection lost during `get_backend_bibtex` cannot be seen in the result (`C130_incomplete_refuted`); `cite` replaces its key
  everywhere in the entry, and loses one entry when the other fails (`C131_*_refuted`). It returns a string, not the annotated list.
* The Asimov data for an expected discovery are pulled towards the background they are fitted to: with an uncertain background they
  hold less than the nominal signal, and a fit to them finds a strength below one (`C153_discovery_refuted`). Post-fit Asimov data
  for limits keep the constraint centred at zero, so an upward fluctuation leaves them with an apparent signal, and their best fit is a
  positive strength (`C153_post_fit_refuted`).
* The constraint the default backends register keeps backgrounds, not yields, from going negative (the docstring of `main_model` says
  `lambda_i >= 0`), and only scipy enforces it: for uncertainties above `sqrt(b)` scipy and Minuit give different expected exclusion levels
  for strong enough signals (`C154_levels_refuted`).
* `default.poisson` with `absolute_uncertainties` registers `theta >= -1` where `b + theta sigma >= 0` is documented. With scipy a bin therefore
  ignores up to `sigma` signal events, whatever its background; with Minuit, which ignores constraints, a bin with an uncertainty does
  not count at all, and no strength is ever excluded if all bins have one (`C155_levels_refuted`, `C155_no_limit`).
* Without observed events in the bins with signal, `sigma_mu` raises `LinAlgError`: the Hessian is singular, and only `MethodNotAvailable` is caught, in
  `sigma_mu` and in `chi2_test`, which therefore fails on such data (`C156_no_events_refuted`, `C156_no_counts_refuted`). With `default.poisson` and
  `absolute_uncertainties` the Hessian is singular for all data: the backgrounds can undo any change of the strength
  (`C156_free_refuted`; exact arithmetic, rounding may hide it behind a huge uncertainty).
* `spey.math.value_and_grad` is documented to return the gradient with respect to the nuisance parameters; it contains the strength,
  first (`C157_uncertain_backgrounds`).
* `chi2_test(limit_type="right")` returns NaN for precise measurements at confidence levels up to 86%: a strength measured as 1 +- 0.1 has no
  68% upper limit, because the default three scan points step over the interval and the fallback halves its inner point past it
  (`C158_precise_refuted`). One-sided limits use the threshold of the two-sided interval: they leave (1 - CL)/2 outside, not 1 - CL
  (`C158_one_sided_refuted`).
* The 68% contour of a Gaussian measurement of two parameters encloses 90%: every point returned by `find_contour` is sqrt 2 times too far from the
  best fit, in units of the uncertainties (`C159_ellipsoid_refuted`, the effect of the threshold of C70).
* A counting experiment that saw nothing has no `chi2_test` limit: the call raises, although the likelihood ratio gives `z^2 / (2 sum s)` (`C160_no_events_refuted`).
* `MixtureModel.log_prob` adds the log-probabilities of its components, i.e. multiplies the probabilities, instead of averaging the probabilities
  (`C163_average_refuted`, `C163_too_small`). `MixtureModel.sample` raises `AttributeError` for every distribution of the package
  (`C163_sample_refuted`).
* `default.effective_sigma` subtracts the background yield from a nuisance parameter that is in standard deviations. A background of 100 with
  uncertainties +12 and -8 is treated as known to 1e-5 for every nuisance value up to 76; with +8 and -12 one standard deviation is about 22
  (`C165_shifts_refuted`, `C165_vanishes`, `C165_grows`).
* A signal uncertainty whose sign differs from that of the yield is ignored (`C166_opposite`): a variation that moves events from one bin to another
  keeps only the bins that gain, and negative yields have no uncertainty. One standard deviation downwards removes `l - l^2/(s + l)` events, not `l`
  (`C166_down`, `C166_shifts_refuted`).
* The auxiliary measurements in pseudo-data are drawn around zero, not around the nuisance parameters of the sampler, and the fits to the pseudo-data
  ignore them (`C167_auxiliary_refuted`, `C167_auxiliary_unused`): toys do not vary the constraint terms.
* Fits search strengths up to 10 only, and a result at that end is not reported (`C169_ceiling`). For data with more events than background and ten
  times the signal, `maximize_likelihood` returns 10, `chi2` at the best strength is negative and `pull` is NaN (`C169_chi2_refuted`), and the
  significance depends on the normalisation of the signal: the same excess is less significant for a smaller signal (`C169_normalisation_refuted`).
* The range of the combined fit is meant to follow the members' best fits, `max(10, mu_init)`, but members with default backends never report more than
  10, so it always ends at 10 (`C170_range`, `C170_best_fit_refuted`).
* Limits given to `find_contour` do not reach the fit at strength one: the best point reported, from which the level of the contour is counted, can lie
  outside them (`C171_limits_refuted`), or be worse than a point inside them that the model's own limits exclude (`C171_wider_limits_refuted`).
* `poi_upper_limit` at confidence level 0 returns infinity, because every strength above zero reaches the level and the bracket search finds no sign
  change (`C174_zero_confidence_refuted`).
* `pull` documents a list of parameters as the value of interest; the likelihood behind it compares the list with a number and raises `TypeError`.
* The range of the fit also cuts the simple backends, at 10 and, for Gaussian bins too, where the first yield would become negative
  (`C178_ends_refuted`). An excess beyond 10 makes the observed upper limit far too weak: the statistic is taken from 10 and vanishes up to as far
  above the measurement as 10 is below it (`C169_limit_refuted`).
* An HTTP error of the package index with a JSON body is cached like an answer and silences the update check for a day (`C179_error_refuted`).
* Combining can weaken the post-fit expected exclusion: the background-only Asimov data of a region with an excess and uncertain background prefer a
  positive strength, and then so do those of any combination with it (`C180_post_fit_refuted`).
* The observed exclusion level jumps where the Asimov data begin to disfavour the strength, from 0 to at least one minus the likelihood ratio of the data.
  A limit found there is the place of the jump, not a strength excluded at the level asked for (`C181_jump_refuted`).
* An option given to a combination both for a backend (`statistical_model_options`) and for all members raises `TypeError` instead of one overriding the
  other (`C183_given_twice_refuted`); options for a misspelt backend name are ignored silently (`C183_other_backends`).
* `config()` hands out the configuration the model itself uses: `bounds = model.backend.config().suggested_bounds; bounds[0] = (0, 50)`, meant for one
  fit, changes every later fit; `config(allow_negative_signal=False)` shares its starting point (`C186_shared_refuted`).
* `CorrelatedBackground` accepts covariance matrices that are not positive, such as [[1, 2], [2, 1]]: `slogdet(cov)[1]` drops the sign of the determinant,
  no error is raised, and the likelihood has no maximum at any strength (`C187_covariance_refuted`).
* Where a background is just above the floor of 1e-20 of the Poisson yields, correlated uncertainties can make twice the data expect lower exclusion levels
  (`C182_floor_refuted`); with backgrounds of at least 1e-6 events they never do (`C182_correlated_levels_partial`).

## 5. Trusted base

* Coq 8.16.1's kernel (no kernel check is switched off, no axiom is declared in the development).
* The axioms listed by `Print Assumptions` for each theorem, see section 6. Besides being closed, theorems use only
  `ClassicalDedekindReals.sig_forall_dec`, `ClassicalDedekindReals.sig_not_dec`,
  `FunctionalExtensionality.functional_extensionality_dep` and `Classical_Prop.classic` of the standard library.
* Coquelicot (integrals), mathcomp (matrices) and Flocq (rounding to single precision) are used as libraries; they add
  no axiom to any theorem listed in MANIFEST.json.
* The reading of the Python source into the model: the code was not run. Every model definition cites file and lines.
* Assumptions about external routines are hypotheses of the theorems that need them (root finders, minimisers, numpy.linalg.inv,
  sha256 collision freedom, numpy.percentile, positive semi-definiteness of a given matrix), each with an instance
  shown to satisfy them.
* Theorems about numbers computed from fits (`fitted`, `best_above`, `fits_from`) assume the best fit over all allowed strengths. The code searches
  strengths up to 10; `C169_fitted` shows that a result below 10 is such a fit, `C169_ceiling` that beyond it is not.

What is modelled, per source file:

| file | modelled | not modelled |
|---|---|---|
| `system/cache.py` | key construction, sequential and concurrent wrapper, clear, eviction, binding to instances (`__get__`, table for `__slots__`, weak reference clean-up, super, copies) | cycles and sharing inside a deep copy (`CopyModel.v` has deep copies of objects without cycles), threads racing to the first use of the table, pickling, access through the class |
| `hypothesis_testing/test_statistics.py` | all | log messages |
| `hypothesis_testing/distributions.py` | both distributions | `logcdf` (unused) |
| `hypothesis_testing/utils.py`, `asymptotic_calculator.py`, `toy_calculator.py` | all | warnings |
| `hypothesis_testing/upper_limits.py` | all (root finder as oracle) | log messages |
| `base/hypotest_base.py` | exclusion, significance, sigma_mu, upper limit, chi2, pull, chi2_test, toy driver | progress bars, plots of toys |
| `base/model_config.py`, `base/utils.py` | all, with lists as values (`ConfigModel.v`) and by reference (`ShareModel.v`) | reprs |
| `base/backend_base.py` | which methods are overridden | docstrings, abstract-class machinery |
| `interface/statistical_model.py` | likelihoods, fits, Asimov data, calculators, limits, combine | `__repr__`, docstring assembly |
| `combiner/uncorrelated_statistics_combiner.py` | all | progress and log messages |
| `optimizer/*` | fit, retry loop, both drivers, option filtering, minimiser selection, the warnings logged | scipy and iminuit themselves |
| `backends/distributions.py` | Normal, MultivariateNormal, Poisson, constraint, main and mixture models | random generators beyond array shapes |
| `backends/default_pdf/*` | constructors of the four default and three simple backends, yields, constraints, layouts, objectives, samplers' shapes and the distributions they draw from (`SamplerModel.v`), third moments, synthesizer, the function whose Hessian is taken (`CurveModel.v`) | autograd itself: a parameter, assumed in statements to find second derivatives where they exist |
| `multiparameter/contour.py` | fit at strength one, thresholds, radial search, walk, basins, seeds, whitening, result flags | joblib scheduling beyond output order |
| `helper_functions.py`, `utils.py`, `__init__.py` | all but printing; import, log level, entry points, bibliographies, cite | `textwrap.indent`, HTTP: parameters |
| `system/exceptions.py` | `warning_tracker`, with the filters and the display hook of Python's `warnings` | suppression of repeated warnings, subclasses of categories |
| `system/logger.py`, `system/webutils.py` | handlers, capture, update cache file, update check, get_bibtex | HTTP itself; `SimpleSpec.match` is a parameter; `semantic_version.Version` is modelled from its documentation |
| `about.py` | the listing of backends | platform information, printing |
| `math.py` | GradModel | the derivatives of autograd are parameters |
| `multiparameter/multiparam.py` | - | a broken import |

## 6. Axioms per theorem

As printed by `Print Assumptions` (repeated under each theorem in the Props files). All of them are axioms of the Coq
standard library, or the sealed definitions of mathcomp that `Print Assumptions` lists.

* **Closed under the global context** (184 theorems):
  `C01_sequential_transparency`, `C02_fifo_bounded`, `C03_failure_leaves_no_trace`, `C04_concurrent_callers_get_their_own_value`, `C05_one_computation_per_key_refuted`, `C05_one_computation_per_key_partial`, `C06_waiters_always_woken_refuted`, `C06_self_call_blocks_refuted`, `C06_waiters_always_woken_partial`, `C07_no_own_error_refuted`, `C07_no_own_error_partial`, `C08_spelling_partial`, `C08_spellings_bind_alike`, `C08_dictionary_order`, `C08_distinct_arguments_refuted`, `C08_distinct_arguments_partial`, `C27_renaming_partial`, `C27_number_of_names_kept`, `C27_unnamed`, `C27_swap_does_nothing_refuted`, `C27_duplicate_names_refuted`, `C27_not_all_or_nothing_refuted`, `C28_keys_resolve_partial`, `C28_scalar_resolves`, `C28_unknown_name_raises`, `C28_entries_come_from_keys`, `C30_integer_reference`, `C30_name_reference_partial`, `C34_options_filtered_exactly`, `C34_scipy_receives`, `C36_always_all_three`, `C36_supplied_is_reported_partial`, `C37_handed_constraints_partial`, `C37_no_caller_list_partial`, `C37_caller_list_kept_iff`, `C37_constraints_accumulate`, `C37_caller_list_refuted`, `C37_own_list_never_returns`, `C40_names_distinct`, `C40_rejected_changes_nothing`, `C40_append`, `C40_remove`, `C41_combination`, `C41_associative`, `C41_operands_unchanged`, `C44_items_partial`, `C44_far_negative_refuted`, `C47_registered_unusable_refuted`, `C47_installed_usable_partial`, `C48_registration`, `C48_names_kept`, `C48_entries_kept`, `C48_rescan`, `C49_expected_concatenated`, `C49_main_model`, `C52_buildable_partial`, `C52_other_case_key_error`, `C52_refused`, `C69_equivalence`, `C69_hash`, `C69_names`, `C69_booleans_not_transitive`, `C69_booleans_hash`, `C69_symmetric`, `C74_single_point_refuted`, `C76_restored`, `C76_restored_any_body`, `C76_disable_restored_any_body`, `C76_messages`, `C76_firsts`, `C76_below_level`, `C77_every_other_partial`, `C77_one_handler_refuted`, `C77_root_handlers`, `C78_only_valid_data`, `C78_damage_ignored`, `C78_once_a_day`, `C78_requests`, `C78_crash_yields_no_wrong_data`, `C78_crash_after_write`, `C78_failed_write_refuted`, `C78_race_refuted`, `C79_engine_selection`, `C80_requested_parameters`, `C82_pairwise_combination`, `C83_history_independent_partial`, `C83_history_independent_refuted`, `C84_set_optimiser`, `C85_log_once_partial`, `C85_written`, `C85_log_once_refuted`, `C93_dictionaries_partial`, `C95_schedule`, `C96_whitened`, `C96_step_bounded`, `C96_coordinate`, `C96_documented_coordinate_refuted`, `C97_profiled_information`, `C97_fallback_frozen`, `C98_lost_refuted`, `C98_kept_partial`, `C98_failing_stream`, `C99_never_raises_partial`, `C99_malformed_refuted`, `C100_one_handler_partial`, `C100_two_handlers_refuted`, `C114_availability`, `C114_joined`, `C115_lookup`, `C117_sampled_at`, `C117_tested_value`, `C117_no_sampler`, `C119_label`, `C119_captured`, `C119_levels_told_apart`, `C120_own_object_partial`, `C120_copy_refuted`, `C121_private_cache_partial`, `C121_values`, `C121_first_use_race_refuted`, `C122_definition_partial`, `C122_slots`, `C122_override_lost_refuted`, `C122_super_refuted`, `C123_freed_partial`, `C123_never_freed_refuted`, `C123_models_accumulate_refuted`, `C124_after_clear_partial`, `C124_stale_refuted`, `C125_levels`, `C125_environment_partial`, `C125_environment_refuted`, `C126_reported_partial`, `C126_beta_reported`, `C126_only_on_evidence`, `C126_prerelease_refuted`, `C126_newer_refuted`, `C127_off`, `C127_on`, `C127_import_fails_only`, `C128_listed`, `C128_order_partial`, `C128_order_refuted`, `C129_listed`, `C129_order`, `C130_entries`, `C130_complete_partial`, `C130_lost_partial`, `C130_incomplete_refuted`, `C131_cite_partial`, `C131_key_partial`, `C131_key_refuted`, `C131_connection_refuted`, `C141_minuit_text`, `C142_restored_partial`, `C142_transparent`, `C142_threads_partial`, `C142_threads_refuted`, `C143_logged_partial`, `C143_fit_partial`, `C143_failing_call_refuted`, `C143_fit_refuted`, `C144_forwarded`, `C144_shadowed`, `C145_fresh_name_partial`, `C161_history`, `C161_calls`, `C163_others_ignored`, `C163_rows`, `C179_recent_partial`, `C179_asked_again`, `C179_error_refuted`, `C183_asimov_partial`, `C184_selected`, `C184_zero_step`, `C184_stretch`, `C184_split`, `C184_reversed`, `C184_names`, `C185_same_answer`, `C185_new_object`, `C185_answers`, `C185_without_copies`, `C185_own_object_needed_refuted`
* `ClassicalDedekindReals.sig_forall_dec` (16 theorems):
  `C28_value_lost_refuted`, `C30_poi_name_accepted_refuted`, `C39_asimov_hypothesis`, `C49_selection`, `C52_case_insensitive_refuted`, `C68_out_of_range_refused`, `C68_overlap_rejected_refuted`, `C75_unprofiled`, `C75_profiled`, `C75_likelihood`, `C82_keeps_settings_refuted`, `C90_duplicates_refuted`, `C93_profile_failed`, `C108_dictionary_scan`, `C163_shapes`, `C171_fit_read`
* `ClassicalDedekindReals.sig_forall_dec`, `FunctionalExtensionality.functional_extensionality_dep` (127 theorems):
  `C09_statistics_never_negative`, `C09_statistics_vanish`, `C09_statistics_values`, `C10_physical_fit_agree`, `C10_unphysical_fit_tilde_smaller`, `C11_names_resolve_exactly`, `C13_cls_zero_on_underflow`, `C15_toy_pvalue_is_tail_fraction`, `C15_toy_pvalue_decreases`, `C15_percentile_interpolates`, `C18_bracket_search_terminates_partial`, `C18_bracket_usable_partial`, `C18_negative_start_never_ends_refuted`, `C21_crossings_genuine`, `C21_crossings_ascending_and_distinct`, `C22_sign_changes_reported`, `C22_grid_zeros_reported_partial`, `C22_last_grid_zero_reported_partial`, `C22_zero_beside_nan_missed_refuted`, `C22_last_zero_missed_refuted`, `C23_refinement_never_worse`, `C23_refinement_below_grid_partial`, `C23_local_minimum_partial`, `C23_lower_grid_value_ignored_refuted`, `C23_nan_minimum_kept_refuted`, `C24_windows_bounded`, `C24_hard_limits`, `C24_results_partial`, `C24_terminates`, `C24_limit_outside_bounds_refuted`, `C25_fixed_bounds_partial`, `C25_value_left_outside_refuted`, `C25_open_bound_not_adapted_refuted`, `C26_multi_bounds_partial`, `C26_inverted_bound_refuted`, `C29_rescaled_bounds_partial`, `C29_upper_end_is_a_pair_refuted`, `C31_fit_hands_over`, `C31_fit_reaches_minimiser`, `C31_mask_becomes_constraints`, `C31_tuple_start_raises`, `C32_untouched_partial`, `C32_origin_of_values_partial`, `C32_pinned_value_leaks`, `C32_model_start_overwritten_refuted`, `C32_caller_start_overwritten_refuted`, `C33_retry_loop`, `C33_bounds_between_attempts`, `C33_windows_grow_partial`, `C33_window_inverts_refuted`, `C33_window_shrinks_refuted`, `C33_open_bound_raises_refuted`, `C34_minuit_receives`, `C36_availability_refuted`, `C38_excluded_cross_section`, `C38_s95_datasets`, `C38_infinite_limit_zero_xsec`, `C38_infinite`, `C43_minimum_poi`, `C43_empty`, `C45_never_found_refuted`, `C45_raises_query_error`, `C45_position_partial`, `C46_weighted_mean`, `C46_start_given`, `C46_start_inside_partial`, `C46_start_inside_refuted`, `C46_below_other_minimum_refuted`, `C46_zero_sigma_is_nan`, `C46_asimov_start_partial`, `C46_asimov_start_refuted`, `C53_threshold`, `C53_negative_bin_refuted`, `C53_simple`, `C54_simple_partial`, `C54_simple_refuted`, `C55_simple`, `C55_poisson`, `C55_simple_fails`, `C56_simple_refuted`, `C57_alive_partial`, `C57_alive_refuted`, `C60_constraint_partial`, `C60_constraint_actual`, `C60_constraint_refuted`, `C68_conserves_partial`, `C68_entries`, `C68_negative_index_refuted`, `C72_tangent`, `C82_cross_section_lost`, `C89_simple_yields`, `C91_bracket`, `C93_profile_partial`, `C104_documented_start_refuted`, `C105_bracket_and_solve_partial`, `C105_nan_values_refuted`, `C105_exact_zeros_refuted`, `C107_difference`, `C107_non_negative_partial`, `C107_default_negative_refuted`, `C108_scan_partial`, `C110_unimodal_profile`, `C110_unimodal_nuisance`, `C110_falls_and_rises`, `C112_best_fit_outside_interval_refuted`, `C112_any_shape_partial`, `C113_end_found_partial`, `C113_fit_at_zero_partial`, `C113_end_missed_refuted`, `C114_empty_refuted`, `C140_minuit`, `C140_scipy_partial`, `C140_method_refuted`, `C140_minuit_constraints_refuted`, `C141_logged`, `C141_answer_silent_refuted`, `C152_absolute`, `C152_scaled`, `C154_small_uncertainties`, `C161_brackets`, `C164_step`, `C170_range`, `C174_intervals`, `C186_unchanged_partial`, `C186_answers_partial`, `C186_renamed_everywhere`, `C186_shared_refuted`
* `ClassicalDedekindReals.sig_forall_dec`, `ClassicalDedekindReals.sig_not_dec`, `FunctionalExtensionality.functional_extensionality_dep` (94 theorems):
  `C12_asimov_zero_exactly`, `C15_toy_confidence_level`, `C16_exclusion_levels_are_probabilities_partial`, `C16_nan_reported_for_all_refuted`, `C18_poi_upper_limit_terminates_partial`, `C20_limit_shape_partial`, `C20_dead_model_shape`, `C20_string_expectation_refuted`, `C20_same_entries_partial`, `C35_return_nll_partial`, `C35_nll_is_minus_fit`, `C35_own_method_ignores_flag`, `C36_unsupported_calls_fail`, `C39_same_dataset`, `C42_sum`, `C42_order_irrelevant`, `C42_negative_yields_partial`, `C42_negative_yields_refuted`, `C42_asimov`, `C61_positive`, `C61_symmetric_partial`, `C61_symmetric_refuted`, `C61_envelopes`, `C67_correlation_recovered`, `C67_covariance_recovered`, `C67_structure_kept`, `C67_entries`, `C70_threshold_partial`, `C70_threshold_refuted`, `C70_two_parameters_refuted`, `C71_radial_partial`, `C71_exact_point_nearby`, `C71_bounds_refuted`, `C72_walk_partial`, `C72_run_partial`, `C72_bounds_refuted`, `C72_level_refuted`, `C73_basins`, `C73_global_minimum`, `C74_seeds_partial`, `C74_knn_distance`, `C74_zero_seeds_refuted`, `C81_sigma_mu_partial`, `C81_sigma_mu_value`, `C81_sigma_mu_refuted`, `C81_zero_sigma_at_zero_poi`, `C81_hessian_first`, `C90_dof_partial`, `C91_expansion_terminates`, `C92_value_error`, `C93_profiling_refuted`, `C94_flags`, `C102_toy_exclusion`, `C104_search_starts`, `C106_limit_separates_partial`, `C109_pull_partial`, `C109_dictionary_refuted`, `C109_square_refuted`, `C110_gaussian_profile`, `C111_crossings_missed_refuted`, `C111_told_apart_partial`, `C111_windows_partial`, `C111_windows_partial`, `C115_names`, `C115_bounds`, `C116_directions`, `C116_starts`, `C118_standard_deviation_partial`, `C118_variance_refuted`, `C118_saddle_refuted`, `C145_taken_name_refuted`, `C156_widens`, `C157_uncertainty`, `C159_boundary`, `C159_every_direction`, `C163_average_partial`, `C163_product`, `C163_too_small`, `C164_momentum`, `C164_passes`, `C170_below_ten`, `C170_within`, `C170_gaussian_start`, `C171_limits_refuted`, `C171_wider_limits_refuted`, `C171_best_value`, `C171_best_point`, `C173_convex_members`, `C173_gaussian_members`, `C183_likelihood_partial`, `C183_other_backends`, `C183_given_twice_refuted`, `C183_asimov_likelihood_partial`, `C189_curvature`
* `ClassicalDedekindReals.sig_forall_dec`, `ClassicalDedekindReals.sig_not_dec`, `Classical_Prop.classic`, `FunctionalExtensionality.functional_extensionality_dep` (253 theorems):
  `C12_transformed_statistic_shape`, `C13_pvalues_well_formed`, `C13_pvalues_decrease`, `C13_normal_distribution`, `C14_expected_values`, `C14_expected_bands_ascend`, `C15_toy_expected_bands_ascend`, `C17_significance_pvalue_is_tail`, `C17_pvalue_decreases_with_significance`, `C18_zero_start_never_ends_refuted`, `C19_level_reaches_target_partial`, `C19_limit_is_crossing_or_infinite_partial`, `C19_exact_start_raises_refuted`, `C35_return_nll_refuted`, `C49_terms_add`, `C49_normal_density`, `C49_poisson_probability`, `C49_joint_likelihood`, `C49_shared_density`, `C49_joint_density`, `C49_main_normal`, `C50_difference`, `C50_same_log_prob_partial`, `C50_same_log_prob_refuted`, `C50_main_model_agrees`, `C51_history`, `C51_threads_partial`, `C51_threads_refuted`, `C53_callable`, `C54_config_partial`, `C54_config_refuted`, `C55_layout`, `C55_disjoint_in_range`, `C56_unused_partial`, `C56_no_effect_refuted`, `C56_simple_unused`, `C58_sampler_partial`, `C58_modifiers_refuted`, `C58_one_bin_refuted`, `C59_first_bins_partial`, `C59_asimov_data_partial`, `C59_simple_refuted`, `C60_default_exact`, `C62_accepted`, `C62_documented`, `C62_factors`, `C63_layout`, `C63_names_distinct_partial`, `C63_names_distinct_refuted`, `C64_moments`, `C64_condition_violated`, `C65_symmetric`, `C65_equation_partial`, `C65_diagonal_partial`, `C65_unit_diagonal_refuted`, `C65_sign_refuted`, `C66_density`, `C66_about_mode_partial`, `C66_bins_partial`, `C66_central_refuted`, `C66_central_exists`, `C86_dataset`, `C87_objective`, `C88_asimov_minimum`, `C89_expected_yields`, `C101_asymptotic_exclusion`, `C103_chi_square_exclusion_partial`, `C103_only_ratio_refuted`, `C106_exclusion_is_level`, `C106_limit_is_boundary_partial`, `C106_all_excluded_refuted`, `C107_single_value`, `C108_scan_equals_single_refuted`, `C132_grows`, `C132_grows_strictly`, `C133_default_convex`, `C133_default_strictly_convex`, `C133_simple_convex`, `C134_best_fit_unique`, `C134_profile_falls`, `C134_levels_grow`, `C135_levels`, `C135_limits`, `C135_correlated_levels`, `C135_correlated_limits`, `C135_limit_exists`, `C136_objective`, `C136_minimum_strength`, `C136_levels`, `C136_limits`, `C137_objective`, `C137_expected`, `C137_profile`, `C137_combiner`, `C137_minimum_strength`, `C138_objective`, `C138_fits`, `C139_control_region`, `C139_levels`, `C146_expected_levels`, `C146_expected_limits`, `C146_limit_exists`, `C147_observed_level`, `C147_expected_significance`, `C148_more_events`, `C148_more_events_limit`, `C148_more_events_significance`, `C148_more_events_bins`, `C148_more_events_limit_bins`, `C148_more_events_significance_bins`, `C148_more_events_fit`, `C149_levels`, `C149_limits`, `C149_significance`, `C150_diagonal_covariance`, `C150_symmetric_envelopes`, `C150_narrow_envelopes_refuted`, `C150_no_uncertainty`, `C150_no_skew_partial`, `C150_no_skew_refuted`, `C150_constructors_accept`, `C151_expected_levels`, `C151_expected_limits`, `C151_limit_exists`, `C152_levels`, `C152_limits`, `C152_never_better`, `C153_limits`, `C153_pulled`, `C153_discovery_refuted`, `C153_post_fit_refuted`, `C154_levels_partial`, `C154_levels_refuted`, `C155_expected_levels_partial`, `C155_as_documented_partial`, `C155_nothing_excluded`, `C155_no_limit`, `C155_nothing_discovered`, `C155_levels_refuted`, `C155_constraint_refuted`, `C156_uncorrelated_partial`, `C156_at_the_fit_partial`, `C156_correlated_partial`, `C156_counting_partial`, `C156_gaussian_partial`, `C156_no_events_refuted`, `C156_no_counts_refuted`, `C156_free_refuted`, `C157_uncertain_backgrounds`, `C157_at_the_fit`, `C157_counting`, `C157_gaussian`, `C157_free_backgrounds`, `C158_interval_partial`, `C158_upper_limit_partial`, `C158_precise_refuted`, `C158_one_sided_refuted`, `C159_ellipsoid_partial`, `C159_ellipsoid_refuted`, `C160_upper_limit_partial`, `C160_interval_partial`, `C160_no_events_refuted`, `C162_counts`, `C162_measurements`, `C162_correlated`, `C162_default`, `C163_average_refuted`, `C163_sample_refuted`, `C165_shifts_refuted`, `C165_symmetric_partial`, `C165_exactly`, `C165_vanishes`, `C165_grows`, `C166_shifts_refuted`, `C166_up_partial`, `C166_down`, `C166_opposite`, `C167_auxiliary_refuted`, `C167_counts`, `C167_simple_counts`, `C167_simple_measurements`, `C167_simple_correlated`, `C167_auxiliary`, `C167_auxiliary_unused`, `C168_ratio`, `C168_significance`, `C168_certain`, `C168_evidence`, `C169_best_fit_refuted`, `C169_chi2_refuted`, `C169_normalisation_refuted`, `C169_limit_refuted`, `C169_ceiling`, `C169_significance`, `C169_below_ten`, `C169_simple_below_ten`, `C169_fitted`, `C170_best_fit_refuted`, `C170_default_member`, `C172_strength`, `C172_upper_limit`, `C172_nuisance`, `C172_fixed_strength`, `C173_default_member`, `C174_upper_limits_partial`, `C174_zero_confidence_refuted`, `C175_bands_ascend`, `C176_levels`, `C176_limits`, `C177_levels`, `C177_limits`, `C177_counting`, `C177_uncertain`, `C177_uncertain_limits`, `C178_measurements_partial`, `C178_correlated_partial`, `C178_counting_partial`, `C178_ends_refuted`, `C180_levels_partial`, `C180_more_members_partial`, `C180_limits_partial`, `C180_uncertain_members`, `C180_counting_members`, `C180_post_fit_refuted`, `C181_expected`, `C181_observed_partial`, `C181_limit_partial`, `C181_default_models`, `C181_pre_fit`, `C181_no_less_than_the_ratio`, `C181_jump_refuted`, `C182_levels_partial`, `C182_limits_partial`, `C182_correlated_levels_partial`, `C182_correlated_limits_partial`, `C182_statistic_scales`, `C182_counting_limit`, `C182_counting_levels`, `C182_counting_significance`, `C182_floor_refuted`, `C187_fit_exists`, `C187_fit_unique`, `C187_asimov_exists`, `C187_expected_fits_exist`, `C187_covariance_refuted`, `C188_best_strength_exists`, `C188_best_fit_exists`, `C188_maximized_exists`, `C188_level_fits_exist`, `C188_maximized_unique`, `C188_any_fit_exists`, `C188_any_maximized_exists`, `C190_no_events`
