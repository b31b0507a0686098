{"id": "C01", "title": "Reader fetches exactly the fields the pipeline needs", "statement": "For a chain of steps, each declaring the fields (data, flags, weights, uvw) it requires and the fields it provides, the set computed for the reader contains a field exactly when some step requires it and no earlier step overwrites it without itself requiring it. So no step sees an unread field, and nothing is read in vain.", "quantifier": "every chain length, every combination of required/provided fields, every field", "why_tests_cant": "The number of chains is unbounded and a missed case only shows as stale or uninitialised data in one particular step order.", "anchors": ["common/Fields.h: Fields::UpdateRequirements", "base/DP3.cc: GetChainRequiredFields"]}
{"id": "C02", "title": "Every output step writes exactly what changed since the previous output", "statement": "When a pipeline contains several output steps, each output step is told to write a field exactly when a step between it and the preceding output step (or the start, plus the initially changed fields for the first one) provides that field.", "quantifier": "every chain of steps with output steps at any positions, every field", "why_tests_cant": "Depends on arbitrary interleavings of output and processing steps; a forgotten reset or missed union shows only for specific positions.", "anchors": ["base/DP3.cc: SetChainProvidedFields", "common/Fields.h: operator|="]}
{"id": "C03", "title": "Baseline numbering is a bijection", "statement": "For n antennas, mapping an antenna pair to a baseline index is symmetric in the pair, yields each index in 0..n(n+1)/2-1 exactly once over unordered pairs, in both row-major and column-major order, and the number of baselines equals that range's size.", "quantifier": "every number of antennas and every antenna pair", "why_tests_cant": "All n and all pairs; tests check a few small n.", "anchors": ["common/baseline_indices.h: ComputeBaselineIndex, ComputeNBaselines, BaselineOrder"]}
{"id": "C04", "title": "Baseline index to antenna pair inverts the numbering", "statement": "Converting a baseline index back to an antenna pair and forth again gives the same index, in both orders, for every index of every array size, although the code goes through a double-precision square root.", "quantifier": "every number of antennas and every baseline index below a size at which the doubles are exact", "why_tests_cant": "The floating point square root could round across an integer for a few large indices only; no test can visit all of them.", "anchors": ["common/baseline_indices.h: ComputeBaseline, ComputeBaselineList"]}
{"id": "C05", "title": "BDA buffer rows tile the storage", "statement": "After any sequence of row additions, data-buffer additions/removals/moves and clears, the rows of a BDA buffer are laid out back to back without gaps or overlap, every present array has exactly as many elements as the rows need, and used plus remaining capacity equals the capacity given at construction.", "quantifier": "every sequence of operations with any row shapes", "why_tests_cant": "History dependent: which named buffers exist when a row is added determines the layout.", "anchors": ["base/BdaBuffer.cc: AddRow, AddData, RemoveData, MoveData, Clear", "base/BdaBuffer.h: Row, GetRemainingCapacity"]}
{"id": "C06", "title": "BDA buffer row contents are stable and refusals are side-effect free", "statement": "A row added to a BDA buffer keeps reading back exactly the data, flags and weights supplied when it was added, whatever rows are added later; a row that does not fit, or that is not time-ordered, is refused and leaves the buffer unchanged.", "quantifier": "every buffer history, every row", "why_tests_cant": "Requires reasoning over all later additions and over the refusal paths.", "anchors": ["base/BdaBuffer.cc: AddRow, TimeIsLessEqual", "base/BdaBuffer.h: GetRows, GetData, GetFlags, GetWeights"]}
{"id": "C07", "title": "BDA channel averaging partitions the channels", "statement": "The input channels assigned to the output channels of a baseline form consecutive, non-overlapping, non-empty ranges that together cover every input channel exactly once.", "quantifier": "every number of input channels and every number of output channels between 1 and that number", "why_tests_cant": "All pairs (nin, nout); integer-division rounding errors appear only for some pairs.", "anchors": ["steps/BDAAverager.cc: set_averaging_params, updateInfo, BaselineBuffer"]}
{"id": "C08", "title": "BDA averaging conserves weight and weighted visibility", "statement": "For every baseline and correlation, over a whole observation including the final flush, the sum of output weights equals the sum of the unflagged input weights, and the sum of output weight times visibility equals the sum of unflagged input weight times visibility (in exact arithmetic); each input sample contributes to exactly one output row.", "quantifier": "every stream length, averaging factor per baseline, flags, weights and data", "why_tests_cant": "Needs every history incl. the partial last interval; tests use a handful of shapes.", "anchors": ["steps/BDAAverager.cc: process, AddBaseline, finish"]}
{"id": "C09", "title": "BDA averaged uvw is the mean of the inputs", "statement": "The uvw coordinate of every emitted BDA row is the mean of the uvw coordinates of the input time slots it covers, whatever the flags and weights of the samples.", "quantifier": "every baseline, every number of slots in the row, every flag/weight pattern", "why_tests_cant": "The fully flagged case takes a separate path that ordinary tests do not inspect.", "anchors": ["steps/BDAAverager.cc: AddBaseline"]}
{"id": "C10", "title": "BDA expansion emits complete, ordered time slots and conserves weight", "statement": "When BDA data is expanded to regular data, time slots are passed on in increasing order, each slot only after a row for every baseline was received for it, each at most once, and the weights of the expanded samples of a row add up to the row's weight (exact arithmetic).", "quantifier": "every arrival order of rows, every time/channel factor per baseline", "why_tests_cant": "Arrival orders and per-baseline factors are combinatorial.", "anchors": ["steps/BdaExpander.cc: process, CopyData, finish"]}
{"id": "C11", "title": "Regular averaging conserves weight and weighted visibility and flags exactly by rule", "statement": "Averaging divides the input slots into consecutive blocks of timestep slots (only the last may be shorter), so n input slots give ceil(n/timestep) output slots. An output sample is flagged exactly when the weights of the unflagged samples of its time/channel block add up to zero or the number of unflagged samples is below minpoints or below minperc percent of all samples. An unflagged output is the weighted mean of the unflagged samples, with their total weight; a flagged one is the weighted mean over all samples with the weight of all samples. The uvw coordinates are the mean over the block.", "quantifier": "every stream length, block sizes, flag pattern, weights and data", "why_tests_cant": "All histories incl. the shorter last block; combinations of flags and thresholds.", "anchors": ["steps/Averager.cc: process, average, finish"]}
{"id": "C12", "title": "Averaged metadata matches the averaged data", "statement": "After averaging by channel and time factors, the announced channel count, total bandwidth, channel centre frequencies and number of time slots equal what the averaging of the data really produces; non-divisible or zero factors are refused.", "quantifier": "every channel count, time count and factor pair", "why_tests_cant": "Announced and actual counts are computed by different code; a mismatch shows for particular remainders only.", "anchors": ["base/DPInfo.cc: update", "steps/Averager.cc: updateInfo"]}
{"id": "C13", "title": "Channel selection keeps the metadata consistent", "statement": "After selecting a contiguous channel range, all per-channel metadata (frequencies, widths, resolutions, effective bandwidths) is that range of the original, the total bandwidth is the sum of the selected effective bandwidths, and a range outside the available channels is always refused.", "quantifier": "every channel list, start and count (as 32-bit unsigned values)", "why_tests_cant": "Wrap-around of start+count and metadata that is not refreshed are not visible in usual selections.", "anchors": ["base/DPInfo.cc: SelectChannels"]}
{"id": "C14", "title": "Removing unused antennas preserves every baseline", "statement": "After removing unused antennas, every baseline still refers to the antennas with the same names, positions and diameters as before, all remaining antennas are used, and indices are renumbered without holes.", "quantifier": "every antenna table and baseline list with valid indices", "why_tests_cant": "Arbitrary subsets of used antennas.", "anchors": ["base/DPInfo.cc: RemoveUnusedAntennas, setAntUsed, setAntennas"]}
{"id": "C15", "title": "Upsampling yields the announced slots in order", "statement": "Upsampling splits every input slot into timestep output slots with equally spaced times centred on the input time; output times never decrease and no input slot's unflagged data is lost unless replaced by newer data for the same time; finishing is safe for any number of input slots.", "quantifier": "every stream of time slots (also none, also overlapping ones)", "why_tests_cant": "Depends on stream history, in particular overlaps and the empty stream.", "anchors": ["steps/Upsample.cc: process, finish, UpdateTimeCentroid"]}
{"id": "C16", "title": "Filter passes exactly the selected baselines and channels", "statement": "The output of the filter step contains, in the original order, exactly the selected baselines and the selected channel range of data, flags, weights and uvw, with row numbers belonging to the same baselines; announced baselines equal delivered baselines.", "quantifier": "every selection mask, channel range and buffer", "why_tests_cant": "All masks; corner cases such as an empty selection behave differently.", "anchors": ["steps/Filter.cc: updateInfo, process"]}
{"id": "C17", "title": "Station removal renumbers subtables consistently", "statement": "The renumbering used when stations are removed from the output maps each kept station id to its rank among kept ids and marks every removed id, so it is strictly increasing and onto 0..kept-1.", "quantifier": "every table size and every sorted set of removed ids", "why_tests_cant": "All subsets.", "anchors": ["steps/Filter.cc: createIdMap, renumberSubTable"]}
{"id": "C18", "title": "Flag expressions mean what boolean algebra says", "statement": "A preflagger expression over named sets is accepted exactly when it is a well-formed boolean expression, and the resulting flags equal the value of the expression with the usual precedence not > and > or, with parentheses and the symbol and word operators interchangeable.", "quantifier": "every token sequence and every assignment of flags to the named sets", "why_tests_cant": "Expressions are unbounded in length and nesting.", "anchors": ["steps/PreFlagger.cc: PSet::exprToRpn, PSet::process"]}
{"id": "C19", "title": "Preflagger modes only change what they promise", "statement": "In set mode existing flags are never removed and a sample becomes flagged only if it matches; in clear mode flags are only removed for matching samples with finite data and non-zero weight; the complement modes act on exactly the non-matching samples.", "quantifier": "every buffer, match pattern and mode", "why_tests_cant": "All flag patterns including ones not uniform over correlations.", "anchors": ["steps/PreFlagger.cc: process, setFlags, clearFlags"]}
{"id": "C20", "title": "Time-of-day ranges select the intended times", "statement": "A time-of-day range given as start..end or centre+-width selects exactly the times inside the interval on the 24-hour circle, including intervals that cross midnight.", "quantifier": "every start/end/centre/width and every time of day", "why_tests_cant": "Wrap-around makes the cases combinatorial; wrong complements only show for wide intervals.", "anchors": ["steps/PreFlagger.cc: PSet::fillTimes, PSet::matchRange"]}
{"id": "C21", "title": "An empty channel selection selects nothing", "statement": "If the channel and frequency selection of a preflagger leaves no channel, then no sample is selected by that preflagger, whatever other criteria it has.", "quantifier": "every channel list, frequency range and other criteria", "why_tests_cant": "Only visible when the selection happens to be empty for one band.", "anchors": ["steps/PreFlagger.cc: PSet::updateInfo, PSet::process, PSet::fillChannels"]}
{"id": "C22", "title": "UVW flagging flags exactly the requested distances", "statement": "The uvw flagger never clears a flag, and newly flags a sample exactly when its baseline coordinate (in metres, or in wavelengths for the sample's channel) lies in one of the requested ranges or outside the requested min/max.", "quantifier": "every uvw coordinate, channel wavelength, range specification and previous flags", "why_tests_cant": "Ranges with negative bounds, squared comparison and multiple ranges combine in unboundedly many ways.", "anchors": ["steps/UVWFlagger.cc: fillUVW, testUVWm, testUVWl, doFlag, process"]}
{"id": "C23", "title": "Parameter files and command line agree", "statement": "A key=value setting gives the same key and value whether it appears as a line in the parameter file or as a command-line argument, and a later setting of a key overrides an earlier one.", "quantifier": "every key and every value text", "why_tests_cant": "Values are arbitrary text (containing '=', quotes, '#', blanks).", "anchors": ["common/ParameterSetImpl.cc: readStream, addMerge, adoptArguments, adoptFile"]}
{"id": "C24", "title": "Parameter subsets are exact", "statement": "Taking the subset of a parameter set for a prefix returns exactly the keys starting with that prefix with the prefix replaced, each with its value, and subtracting it leaves exactly the other keys; adopting a collection overrides exactly its keys. Adding, replacing, merging or removing a single key changes that key only.", "quantifier": "every parameter set, prefix and collection, for case-sensitive and case-insensitive sets", "why_tests_cant": "The implementation scans an ordered map from a lower bound; correctness depends on an order argument over all keys.", "anchors": ["common/ParameterSetImpl.cc: makeSubset, subtractSubset, adoptCollection"]}
{"id": "C25", "title": "Every unused parameter is reported", "statement": "After any sequence of lookups, the unused-key report contains a key exactly when it is present and was never successfully looked up (directly or through a subset).", "quantifier": "every parameter set and every history of lookups", "why_tests_cant": "History property.", "anchors": ["common/ParameterSetImpl.cc: findKV, unusedKeys, isDefined", "common/ParameterSetImpl.h"]}
{"id": "C26", "title": "Lists in parameter values split at top-level commas only", "statement": "Splitting a bracketed parameter value yields exactly the pieces between commas that are outside quotes and outside nested parentheses, brackets and braces, in order; joining the pieces with commas gives the original text back, and unbalanced text is refused.", "quantifier": "every value text", "why_tests_cant": "Nesting and quoting are unbounded.", "anchors": ["common/ParameterValue.cc: splitValue, getVector", "common/StringTools.cc: skipQuoted, skipBalanced"]}
{"id": "C27", "title": "Range notation expands to the full sequence", "statement": "A range such as pre007..012post expands to exactly the numbers between both ends, ascending or descending, each with the given prefix and suffix and zero-padded to the width of the notation, and expansion always terminates.", "quantifier": "every start, end and width, every surrounding text", "why_tests_cant": "All numeric ranges including the largest representable number.", "anchors": ["common/StringTools.cc: expandRangeString"]}
{"id": "C28", "title": "Number parsing is exact or refused", "statement": "Parsing text as an integer of a given width either returns the number the text denotes, or throws; it never returns a wrapped or truncated number and never ignores trailing text.", "quantifier": "every text and every supported integer width and sign", "why_tests_cant": "All texts.", "anchors": ["common/StringTools.cc: strToLong, strToInt, strToInt32, strToInt16, strToUlong, strToUint, strToUint32, strToUint16"]}
{"id": "C29", "title": "Clustering assigns every direction to exactly one cluster", "statement": "Proximity clustering returns non-empty clusters such that every input position belongs to exactly one cluster, for any distances.", "quantifier": "every list of positions and every maximum distance", "why_tests_cant": "The loop removes clusters from several parallel containers; a lost or duplicated index shows only for particular geometries.", "anchors": ["common/ProximityClustering.cc: Group, GroupSource"]}
{"id": "C30", "title": "Per-station values: last matching pattern wins", "statement": "After parsing a per-station value list, a station has the value of the last item matching its name (taking negated patterns into account) and keeps its previous value when nothing matches; a malformed item is refused.", "quantifier": "every station list, pattern list and value list", "why_tests_cant": "Overlaps and negations are combinatorial.", "anchors": ["common/ValuePerStationParsing.h: AssignStationValues, ParseValuePerStation"]}
{"id": "C31", "title": "Work queues deliver every item once and in order", "statement": "Everything written to a buffered work lane before it is closed is read exactly once and in order by a reader, whatever the buffer sizes on both sides, and nothing is delivered before being flushed or closing.", "quantifier": "every sequence of writes and reads and all buffer sizes", "why_tests_cant": "Schedules of buffering and flushing.", "anchors": ["common/buffered_lane.h: lane_write_buffer, lane_read_buffer"]}
{"id": "C32", "title": "Interpolation is independent of streaming", "statement": "The interpolate step outputs every input slot once, in order; each flagged sample is replaced by the kernel-weighted mean of the unflagged samples of the original data within half a window in time and frequency, unflagged samples are unchanged, and samples without any unflagged neighbour are zeroed and flagged - independent of how buffering and threads interleave.", "quantifier": "every stream length, window size, flag pattern", "why_tests_cant": "Streaming state (ring of buffers, deferred clearing of flags) must be right at every stream length, in particular shorter than the window.", "anchors": ["steps/Interpolate.cc: process, interpolateTimestep, interpolateSample, sendFrontBufferToNextStep, finish"]}
{"id": "C33", "title": "Median flagging uses the right time window for every slot", "statement": "The median flagger outputs every time slot exactly once and in order, and judges each slot on the time slots centred on it, mirrored at the start and end of the observation, all of them real slots of the stream.", "quantifier": "every stream length and window size", "why_tests_cant": "The circular buffer and the shrunken window at the end are only wrong for particular lengths.", "anchors": ["steps/MadFlagger.cc: process, finish, flag"]}
{"id": "C34", "title": "Median flagging uses the right channel window", "statement": "For every channel the median flagger gathers exactly the channels of the window centred on it, mirrored at the band edges; every gathered channel exists and the number gathered is the window size.", "quantifier": "every channel count, every odd window size up to it, every channel", "why_tests_cant": "All positions relative to both edges.", "anchors": ["steps/MadFlagger.cc: computeFactors, getExprValues"]}
{"id": "C35", "title": "Median flagging honours the correlations the user lists", "statement": "If the user lists correlations to flag on, exactly the valid ones among them are used (the first correlation when none is valid), without reading outside the list.", "quantifier": "every list of correlation numbers", "why_tests_cant": "Whether an index is in range depends on the list's own values.", "anchors": ["steps/MadFlagger.cc: updateInfo"]}
{"id": "C36", "title": "Median flagging depends only on unflagged samples in the window", "statement": "Whether a sample is flagged by the median flagger depends only on the amplitudes of the unflagged samples in its own time/channel window, not on other samples, channels, baselines or thread assignment.", "quantifier": "every data set, flag pattern and schedule", "why_tests_cant": "A schedule- and history-dependence (values left in scratch space) cannot be excluded by sampling.", "anchors": ["steps/MadFlagger.cc: computeFactors, flagBaseline", "common/Median.h: Median"]}
{"id": "C37", "title": "Superstations are formed from exactly the right baselines", "statement": "Each new baseline of a superstation combines exactly the existing baselines between one of its parts and the other station, conjugated exactly when the part is the first antenna; baselines between parts are only used for autocorrelations as configured; original baselines are untouched.", "quantifier": "every antenna list, baseline list and superstation definition", "why_tests_cant": "Combinatorial in baselines and definitions; new baselines feed into later superstations.", "anchors": ["steps/StationAdder.cc: updateInfo, GetMatchingStations"]}
{"id": "C38", "title": "Superstation visibilities are weighted sums with correct flags", "statement": "The visibility of a new baseline is the (optionally averaged) weighted sum of its unflagged constituents, flagged exactly when their weight is zero or their number is below minpoints; existing rows are passed unchanged.", "quantifier": "every constituent list, data, flags, weights and settings", "why_tests_cant": "All flag/weight patterns.", "anchors": ["steps/StationAdder.cc: process"]}
{"id": "C39", "title": "Reading a measurement set fills time gaps and keeps order", "statement": "The reader ends, and delivers strictly increasing times from the first to the last selected time: of a regular measurement set exactly the times of the grid, each stored time slot once in its place and an inserted one for each that is missing; of any other one every stored time slot up to the end once and in order, and inserted ones only where nothing is stored.", "quantifier": "every sequence of stored times (gaps, irregular, drifting, out of order), tolerance and time selection", "why_tests_cant": "Arbitrary gap patterns and drifts.", "anchors": ["steps/MsReader.cc: process", "base/DP3.cc: Execute"]}
{"id": "C40", "title": "Channel selection of the reader stays inside the band", "statement": "The start channel and channel count derived from the user's expressions always denote a non-empty range inside the band, equal to the requested range clipped to the band, or the selection is refused.", "quantifier": "every value of the two expressions and every channel count", "why_tests_cant": "All expression values.", "anchors": ["steps/MsReader.cc: ParseChannelSelection"]}
{"id": "C41", "title": "Visibilities and flags of a time slot", "statement": "The visibilities of a stored time slot are those of the selected channels and baselines; all correlations of a sample are flagged if one of them is flagged in the measurement set or is not finite or its row is flagged, and otherwise none is; a time slot that is inserted or has no data is flagged; one with another number of rows is refused; and the count per correlation that is shown is that of its non-finite values.", "quantifier": "every content of a time slot, channel selection and set of fields to read", "why_tests_cant": "All patterns of non-finite values and flags, and all combinations of fields.", "anchors": ["steps/MsReader.cc: process, FlagInfinityNan"]}
{"id": "C42", "title": "Flag counts are consistent", "statement": "Counts of flags per baseline, per channel and per correlation reported by a flagging step are the numbers of events; merging per-thread counters gives the same totals as counting sequentially in any order; per-station and per-pair counts hold each baseline once; every used station is shown in one column of the printed table; the list of fully flagged baselines holds exactly the pairs whose baselines are flagged in every sample.", "quantifier": "every sequence of counted flags, every split over threads, every set of baselines", "why_tests_cant": "All schedules and all baseline sets; the column wrapping only matters for more than 15 stations.", "anchors": ["base/FlagCounter.cc: add, showStation, showBaseline", "base/FlagCounter.h: incrBaseline, incrChannel, incrCorrelation"]}
{"id": "C43", "title": "Transfer copies the right time slot, baseline and channel", "statement": "Transferring data and/or flags from an averaged measurement set gives each selected baseline of the target, in target time slot k, the values of the matching source baseline in source time slot k divided by the averaging factor (the last slot for the remainder), in the first source channel that ends above the frequency of the target channel, which is the channel containing it when source channels do not overlap; everything else keeps its value. A source with another number of baselines than selected, or with intervals that are no whole multiple, is refused.", "quantifier": "every source and target with ascending frequencies and consecutive row numbers per time slot, every selection, every averaging factor and every number of time slots", "why_tests_cant": "Edge positions of two frequency grids, selections and time slot counts combine without bound.", "anchors": ["steps/Transfer.cc: Transfer, TransferSingleTimeSlot, process, updateInfo", "steps/FlagTransfer.cc: process, updateInfo"]}
{"id": "C44", "title": "Only compatible steps are connected", "statement": "A pipeline built from a parameter set is accepted only if every step accepts the kind of data (regular or BDA) delivered by its predecessor, including the first step after the reader.", "quantifier": "every list of steps and every input kind", "why_tests_cant": "All chains.", "anchors": ["base/DP3.cc: MakeStepsFromParset, MakeMainSteps", "steps/Step.h: accepts, outputs"]}
{"id": "C45", "title": "Clipping flags the right visibilities", "statement": "The clipper only adds flags; it flags a channel block of a baseline and time interval exactly when the predicted amplitude in the block's representative channel exceeds the maximum, for the same baseline in the original numbering.", "quantifier": "every selection of baselines, time/frequency step and amplitudes", "why_tests_cant": "Mapping between filtered and original baselines must hold for all masks.", "anchors": ["steps/Clipper.cc: process, updateInfo"]}
{"id": "C46", "title": "The median of scratch data is the statistical median", "statement": "The median routine returns the middle element of the sorted values, or the mean of the two middle elements for an even count, independent of the input order, and 0 for no values.", "quantifier": "every finite list of values", "why_tests_cant": "All lengths and orders.", "anchors": ["common/Median.h: Median"]}
{"id": "C47", "title": "BDA averaging factors respect the configured limits", "statement": "For each baseline the time averaging factor chosen by the BDA averager is at least 1, a factor above 1 never exceeds timebase divided by the baseline length (at least 0.1 m), and with maxinterval at least one time step the averaged interval never exceeds maxinterval; the number of output channels lies between minchannels and the number of input channels. Within these limits the averaging is as strong as possible: no larger time factor and no smaller number of channels satisfies them.", "quantifier": "for all timebase, frequencybase, maxinterval, minchannels settings, time intervals, channel counts and baseline lengths", "why_tests_cant": "The limits interact through floor, ceil, max and clamping; tests pick a few settings, while the limit must hold for every array layout and every setting.", "anchors": ["steps/BDAAverager.cc: BdaAverager::updateInfo"]}
{"id": "C48", "title": "Autocorrelation lookup table", "statement": "The table of autocorrelations gives for each antenna the (last) baseline that pairs the antenna with itself, and marks exactly the antennas without such a baseline; asking for it is safe for any baseline list.", "quantifier": "every list of baselines, also the empty one", "why_tests_cant": "Arbitrary baseline orders, duplicates and missing autocorrelations; the empty list occurs only after unusual selections.", "anchors": ["base/DPInfo.cc: getAutoCorrIndex"]}
{"id": "C49", "title": "Number of time slots from first and last time", "statement": "The number of time slots derived from the first time, the last time and the interval is n+1 when the last time lies n intervals after the first, up to half an interval of jitter.", "quantifier": "every first time, interval, n and jitter", "why_tests_cant": "Rounding at half intervals.", "anchors": ["base/DPInfo.cc: setTimes"]}
{"id": "C50", "title": "Baseline selection is the conjunction of the given criteria", "statement": "A baseline is selected exactly if it matches the given station names (one pattern: either station; two patterns: the two stations in either order; several entries: any of them), the correlation type and one of the length ranges; criteria not given do not restrict, and swapping the two stations of a baseline makes no difference.", "quantifier": "every list of stations, baselines, patterns and ranges", "why_tests_cant": "All combinations of criteria and station orders.", "anchors": ["base/BaselineSelection.cc: apply, handleBLVector, handleCorrType, handleLength"]}
{"id": "C51", "title": "A preflagger selects by the conjunction of its criteria and its set expression", "statement": "A preflagger set selects a sample exactly if every criterion that is given holds for it (time, baseline, uv distance, azimuth/elevation of both stations, channel, amplitude, real, imaginary, phase) and its set expression over the nested sets is true for it; a set without criteria and expression selects nothing; uvmmin and uvmmax select distances below the minimum or above the maximum.", "quantifier": "every nesting of sets, every combination of criteria, every buffer", "why_tests_cant": "The criteria are evaluated lazily with early exits, shared baseline masks and per-station caching, over arbitrarily nested sets.", "anchors": ["steps/PreFlagger.cc: PSet::process, PSet::matchTime, PSet::flagBL, PSet::flagUV, PSet::flagAzEl, PSet::testAzEl, PSet::flagChannels, PSet::flagAmpl"]}
{"id": "C52", "title": "Channel metadata given by a reader is checked and completed", "statement": "When channel frequencies, widths, resolutions and effective bandwidths are set, lists of unequal sizes are refused, omitted resolutions and bandwidths become the widths, the total bandwidth is the sum of the effective bandwidths, and an omitted reference frequency becomes the middle frequency (the mean of all frequencies for regular channels); this is safe for any lists.", "quantifier": "for all lists of channel metadata and reference frequencies", "why_tests_cant": "Tests use a few channel counts; odd and even counts, empty lists and partly omitted lists must all work.", "anchors": ["base/DPInfo.cc: DPInfo::setChannels"]}
{"id": "C53", "title": "Flag tables do not overwrite each other", "statement": "With save=true, two steps of one run save their flag percentages in different files; so do two input measurement sets with different names in one directory.", "quantifier": "every path, measurement set name and pair of step names", "why_tests_cant": "Needs injectivity of the name construction over all names.", "anchors": ["base/FlagCounter.cc: MakeSaveFilename, init"]}
{"id": "C54", "title": "Autocorrelation flags reach exactly the baselines they should", "statement": "With applyautocorr, the median flagger flags a channel of a cross-correlation within the length limits exactly if it was flagged, or its first correlation was unflagged and an existing autocorrelation of one of its antennas is flagged in that channel; nothing else changes.", "quantifier": "every baseline table, flag pattern and set of present autocorrelations", "why_tests_cant": "In-place updates while looping over baselines could leak flags between baselines in some orders only.", "anchors": ["steps/MadFlagger.cc: flag"]}
{"id": "C55", "title": "Superstations consist of the stations the user meant", "statement": "A station is part of a superstation exactly if the last of its patterns that matches the name is not negated (! or ^). Definitions are refused exactly if a new name already exists or a station is in two superstations; superstations without stations are skipped.", "quantifier": "every station list, every list of patterns and definitions, any pattern matcher", "why_tests_cant": "Pattern order and conflicts between definitions are combinatorial.", "anchors": ["steps/StationAdder.cc: GetMatchingStations, updateInfo"]}
{"id": "C56", "title": "Superstation visibilities in terms of the original data", "statement": "The visibility of a baseline of a superstation, also one between two superstations, is the weighted mean (or sum) of the unflagged visibilities of all original baselines between the stations on its two sides.", "quantifier": "every baseline table, definition of superstations, data, weights and flags", "why_tests_cant": "Baselines between superstations are built from other new baselines; equality with a direct average must hold for all data.", "anchors": ["steps/StationAdder.cc: updateInfo, process"]}
{"id": "C57", "title": "Transfer accesses only existing channels and baselines", "statement": "For every accepted input, transferring never reads or writes outside an array, leaves channels outside the band of the source alone, follows frequencies in either order, and uses every source time slot.", "quantifier": "every accepted source and target", "why_tests_cant": "Reading one element past an array seldom shows, and the other cases need unusual inputs.", "anchors": ["steps/Transfer.cc: TransferSingleTimeSlot, process, updateInfo", "steps/FlagTransfer.cc: process"]}
{"id": "C58", "title": "Selection of times", "statement": "With a start time, time slots before it are skipped and the delivered times stay on the grid of the measurement set; with an end time the last time is the last one of the grid not after it; with a number of time slots so many are delivered; contradicting or empty selections are refused.", "quantifier": "every sequence of stored times, interval and selection", "why_tests_cant": "Boundaries fall anywhere between stored and missing time slots.", "anchors": ["steps/MsReader.cc: ParseTimeSelection, SkipFirstTimes"]}
{"id": "C59", "title": "Weights of a time slot", "statement": "The weights are those of the measurement set for the selected channels (those for a whole spectrum apply to each channel, zero meaning one); an inserted time slot has weight zero; automatic weights multiply by bandwidth and time over the two autocorrelations of the right polarisations, and leave the weight if one is missing or zero.", "quantifier": "every content of a time slot and baseline table, for one, two or four correlations", "why_tests_cant": "Index arithmetic over all shapes and channel selections.", "anchors": ["steps/MsReader.cc: GetWeights, AutoWeight", "base/DPInfo.cc: getAutoCorrIndex"]}
{"id": "C60", "title": "Clustered patches hold every component once, in the middle of the cluster", "statement": "Clustering the components of a sky model into patches keeps every component exactly once; the new patches are numbered in order, are not empty and are named after a patch that their first component came from; and the direction of a patch lies among its components.", "quantifier": "every sky model and every proximity limit", "why_tests_cant": "Geometries and the border of right ascension are not enumerable.", "anchors": ["sky_model/SkyModelFunctions.cc: clusterProximateSources"]}
{"id": "C61", "title": "Name patterns match what they say", "statement": "A name pattern matches exactly the names that are equal to it, where a star stands for any text and a question mark for any single character; other characters stand for themselves.", "quantifier": "every pattern and every name", "why_tests_cant": "The translation to a regular expression has to be right for all texts.", "anchors": ["common/StringTools.cc: PatternToRegex", "common/ValuePerStationParsing.h: AssignStationValues", "steps/StationAdder.cc: GetMatchingStations"]}
{"id": "C62", "title": "The type of a step follows from its name or its type parameter", "statement": "A step has the type given by its type parameter, or else its name without the digits at its end, in lower case; and a step of a type that does not exist is refused.", "quantifier": "every step name and every parameter set", "why_tests_cant": "Names are free text.", "anchors": ["base/DP3.cc: MakeStepsFromParset, MakeSingleStep"]}
{"id": "C63", "title": "Split gives each chain its own values", "statement": "Every chain of a Split step gets the parameters of the user, with each replaced parameter having the value with the number of the chain in the list that was given for it; lists of different lengths are refused; and the parameters of the other steps are not changed.", "quantifier": "every parameter set, list of replaced parameters and number of values", "why_tests_cant": "Parameter sets are free text of any size; sharing of a parameter set between steps only shows in combination with other steps.", "anchors": ["steps/Split.cc: Split::Split", "common/ParameterSet.cc: ParameterSet copy, replace, getStringVector", "common/ParameterValue.cc: getVector, getString"]}
{"id": "C64", "title": "Removing Stokes parameters leaves the others", "statement": "After the NullStokes step, the chosen Stokes parameters of every sample are zero and the others are what they were.", "quantifier": "every choice of Stokes parameters, every visibility and number of samples and correlations", "why_tests_cant": "The changes for the four parameters are made one after another on the same sample; each must keep what the other ones did, for all values.", "anchors": ["steps/NullStokes.cc: process"]}
{"id": "C65", "title": "Combining named visibilities changes only the main ones", "statement": "Adding or subtracting named visibilities changes the main visibilities one by one, removes the named ones and leaves all other visibilities, flags and weights; a name that is not there is an error; copying and moving named visibilities leaves everything else.", "quantifier": "every buffer with any names and sizes, regular or BDA, and every operation", "why_tests_cant": "Buffers can hold any number of named visibilities, and BDA rows may have any shape.", "anchors": ["steps/Combine.cc: process", "base/DPBuffer.cc: CopyData, MoveData, RemoveData", "base/BdaBuffer.cc: GetData, RemoveData"]}
{"id": "C66", "title": "Solutions put in a buffer are read back per direction", "statement": "After setting the solutions of all directions in a buffer, reading a direction gives for every channel block, antenna and polarization what was set for that direction; directions that were not set keep their solutions.", "quantifier": "every number of channel blocks, antennas, directions and polarizations, and all values", "why_tests_cant": "The solutions of all directions are interleaved in one array, and indexing has to be right for all sizes.", "anchors": ["base/DPBuffer.cc: SetSolution, GetSolution"]}
{"id": "C67", "title": "The buffer for the BDA solver hands every row to the right solution interval", "statement": "When BDA buffers arrive in time order, the calibration step solves the intervals in order, each with exactly the rows whose mid time lies in it, and hands on every buffer once, in order, and only after all intervals its rows belong to were solved. A baseline that stops having data only delays the output, it does not change the rows of an interval.", "quantifier": "every sequence of BDA buffers whose rows are ordered per baseline, every interval length, and every number of baselines", "why_tests_cant": "Rows of long and short averaging intervals arrive interleaved; which interval is complete depends on the last time of every baseline, over arbitrarily long sequences.", "anchors": ["ddecal/gain_solvers/BdaSolverBuffer.cc: AppendAndWeight, AdvanceInterval, IntervalIsComplete, GetDone, AddInterval, RelativeIndex", "ddecal/gain_solvers/BdaSolverBuffer.h: BdaSolverBuffer, GetIntervalRows, BufferCount", "steps/BdaDdeCal.cc: process, ProcessCompleteDirections, SolveCurrentInterval, ProcessDone, finish"]}
{"id": "C68", "title": "The solver sees every visibility times its own weight, or zero", "statement": "For every sample, if any correlation is flagged or any visibility of the data or of the model data of any direction is not finite, all correlations of the sample are zero in the data and in all model data; otherwise every visibility is multiplied with the weight (or the square root of the weight) of that same visibility. The vectorised code gives this result for every vector width.", "quantifier": "every number of samples, correlations and directions, every even batch size of the processor, every data, weights and flags", "why_tests_cant": "The vectorised loop, its lane permutations and the scalar remainder depend on the processor and on the number of visibilities; tests run on one processor with a few sizes.", "anchors": ["ddecal/gain_solvers/SolverTools.cc: AssignAndWeight, Weigh, DuplicateLow, DuplicateHigh", "ddecal/gain_solvers/BdaSolverBuffer.cc: AppendAndWeight"]}
{"id": "C69", "title": "Every visibility goes to the solver once, with its own antennas, channel block and solution", "statement": "The data for the solver has, for every channel block, every cross-correlation visibility of the solution interval whose channel is in the block exactly once, with its own antennas, its model data of all directions, and for every direction the number of the solution of its time. Every channel is in one block. The counts per antenna and per solution and the solution weights are the sums over exactly the visibilities concerned.", "quantifier": "every number of time steps, rows, channels, channel blocks, directions, solutions per direction and baselines (auto-correlations included); every data", "why_tests_cant": "The index arithmetic combines five sizes, and the rounding of block and time boundaries only shows for sizes that do not divide each other; tests use a few sizes that do.", "anchors": ["ddecal/gain_solvers/SolveData.cc: SolveData::SolveData (regular and BDA), CountAntennaVisibilities, GetSolutionWeights", "ddecal/gain_solvers/SolveData.h: SolveData::ChannelBlockData", "steps/BdaDdeCal.cc: GetChanBlockIndex"]}
{"id": "C70", "title": "An iteration of a gain solver gives every antenna its best fitting solution", "statement": "For every channel block, an iteration of the scalar, diagonal or full-Jones solver gives every antenna, and every solution of every direction, the one gain with the smallest sum of squared differences between the data without the other directions and the model with the current solutions of the other antennas. It gives NaN only if the data does not determine the gain. The result does not depend on how the visibilities are divided over threads. If the data is exactly what the current solutions give, the solutions stay.", "quantifier": "every number of antennas, directions, solutions per direction and visibilities; all data, model data and current solutions; every division over threads", "why_tests_cant": "A test compares with a simulated solution within a tolerance after many iterations; a wrong index, conjugate or weight for some antenna, direction or sub-solution can still converge there. That no other gain fits better is a statement about all gains.", "anchors": ["ddecal/gain_solvers/IterativeScalarSolver.cc: PerformIteration, SolveDirection, AddOrSubtractDirection", "ddecal/gain_solvers/IterativeDiagonalSolver.cc: PerformIteration, SolveDirection, AddNormToDenominator", "ddecal/gain_solvers/IterativeFullJonesSolver.cc: PerformIteration, SolveDirection, AddOrSubtractDirection", "ddecal/gain_solvers/SolveData.h: DiagonalAddOrSubtractDirection"]}
{"id": "C71", "title": "A gain solver stops when it should and says truthfully whether it converged", "statement": "A solver stops after the first iteration, from the minimum on, that is the last allowed one or has converged with all constraints satisfied (or has stalled), and returns the solutions of that iteration. The number of iterations it reports is more than the maximum exactly if it has not converged. Stalling means at least 30 iterations with a mean step smaller than sigma times the standard deviation. Step sizes do not depend on the scale of the solutions, and are the same for all solvers if the gains are equal. A step goes the given fraction of the way to the next solution, in phase-only mode along the shorter way round the circle. Solutions that are not finite are replaced by the average of the finite ones and all others stay.", "quantifier": "every solver step, constraint and setting; every sequence of step sizes; every set of solutions; every vector width", "why_tests_cant": "Tests run a few solves and look at the final solutions within a tolerance. When a solver stops depends on the whole sequence of steps, and stalls and solutions that are not finite hardly occur in tests.", "anchors": ["ddecal/gain_solvers/SolverBase.cc: DetectStall, Step, AssignSolutions, MakeResult, MakeSolutionsFinite1Pol, MakeSolutionsFinite2Pol, MakeSolutionsFinite4Pol", "ddecal/gain_solvers/SolverBase.h: ReachedStoppingCriterion", "ddecal/gain_solvers/IterativeScalarSolver.cc: Solve"]}
{"id": "C72", "title": "The hybrid solver stays within its iterations", "statement": "The solvers that a hybrid solver runs after each other together do at most the maximum number of iterations, and the reported number is at most the maximum exactly if the last one has converged.", "quantifier": "every number of solvers, every maximum, every behaviour of the solvers", "why_tests_cant": "The bookkeeping only goes wrong for certain numbers of iterations, which depend on the data.", "anchors": ["ddecal/gain_solvers/HybridSolver.cc: Solve, RunSolver", "ddecal/SolverFactory.cc: CreateSolver"]}
{"id": "C73", "title": "The solution file gives for every time slot the solution that was fitted to it", "statement": "When DDECal writes its solutions, the time axis of the file has for every time slot of the data exactly the entry whose interval contains the slot, and the values in that entry, for every channel block, antenna, direction and polarization, are those of the solution to which the solver assigned the visibilities of that slot, also when directions have different solution intervals, when the last interval is partial and for the results of constraints; there are no entries after the data.", "quantifier": "every number of time slots, every solution interval, every list of solutions per direction that is accepted, every number of channel blocks, antennas, directions and polarizations, all values", "why_tests_cant": "The file combines intervals of different directions by least common multiples, and has as many times as fit; a slip shows only for certain combinations of intervals, partial ends and times, which tests with a few combinations do not reach.", "anchors": ["ddecal/SolutionWriter.cc: Write", "ddecal/SolutionResampler.cc: Upsample", "ddecal/Settings.cc: PrepareSubSolutionsPerDirection", "steps/DDECal.cc: WriteSolutions", "steps/BdaDdeCal.cc: WriteSolutions", "ddecal/gain_solvers/SolveData.cc"]}
{"id": "C74", "title": "DDECal passes on every time slot once, in order, and solves every interval from its own slots", "statement": "DDECal accepts a run exactly if model data is there for every direction that is not predicted, there are no more intervals than expected, and correction of models is used only with one solution per direction. In an accepted run every time slot is passed on once and in order, with flags and other content unchanged, with as data the original data, the sum of the model data of that slot (only predicting), or the original data corrected with the model data of that slot and the solutions of its own interval. The solver is called once for every interval, with the slots of that interval, with their own model data, padded with flagged copies of its first slot when the last interval is partial, and it starts from the solutions of the previous interval if that is asked for (and it converged, if that is asked for).", "quantifier": "every list of time slots of any length, every solution interval, number of intervals per batch and number of directions, every mix of predicted and reused model data, all settings, every solver, predictor and flagger", "why_tests_cant": "The step keeps several lists of buffers, original flags and model data, and moves content between them; whether something is lost or exchanged depends on the length of the data, the batch and the settings together, of which tests run a few.", "anchors": ["steps/DDECal.cc: process", "steps/DDECal.cc: doPrepare", "steps/DDECal.cc: doSolve", "steps/DDECal.cc: InitializeSolutions", "steps/DDECal.cc: finish", "steps/DDECal.cc: SumModels", "steps/DDECal.cc: CorrectAndSubtractModels"]}
{"id": "C75", "title": "The weights, counts and time that DDECal gives to the solver are those of the interval", "statement": "The channel blocks of DDECal partition the channels, with at least the requested and less than twice the requested number of channels each. For every solution interval, the weight that an antenna has in a channel block is proportional to the sum of the weights of the unflagged visibilities of its baselines in the interval and block; a channel block is flagged exactly if the fraction of usable visibilities of that block in the interval is below the minimum ratio; and the time that is given to the constraints is the mean time of the interval.", "quantifier": "every number of channels, every requested number of channels per block, every list of slots, all weights and flags, every ratio", "why_tests_cant": "The sums are made slot by slot with a factor, so a slip in the order changes only the relative weights and is seen only for data with weights that vary with time; the tests have equal weights.", "anchors": ["steps/DDECal.cc: doPrepare", "steps/DDECal.cc: doSolve", "steps/DDECal.cc: CheckMinimumVisibilities", "steps/DDECal.cc: updateInfo"]}
{"id": "C76", "title": "DDECal subtracts the model as seen through the solutions of the right antennas, direction and channel block", "statement": "When DDECal subtracts, every visibility of every baseline becomes the original visibility minus the sum over the directions of J1 M J2^H, where M is the model of that direction for that visibility and J1 and J2 are the solutions of the two antennas of the baseline for that direction and the channel block of that channel, for scalar, diagonal and full-Jones solutions; model data that is kept becomes J1 M J2^H. This also holds when some antennas have no baselines, so that the solver numbers the antennas differently.", "quantifier": "every number of antennas, directions, channels, channel blocks and baselines, all values of data, model data and solutions, one, two or four polarizations per solution", "why_tests_cant": "The solutions are in one vector with an index computed from antenna, direction and polarization; a wrong index gives plausible values. Tests have one measurement set where all antennas are used.", "anchors": ["steps/DDECal.cc: ApplySolutionAndSubtract", "steps/DDECal.cc: CorrectAndSubtractModels", "steps/DDECal.cc: updateInfo"]}
{"id": "C77", "title": "BdaDdeCal applies to BDA model data the solutions that were fitted to it", "statement": "When BdaDdeCal corrects or subtracts model data, every channel of every row gets, per direction, J1 M J2^H with the solutions of the two antennas, that direction, and the channel block to which the solver assigned that channel, for scalar, diagonal and full-Jones solutions; with subtraction the visibility becomes the original minus the sum over the directions. This holds for every averaging of the channels of the row, and for several solutions per direction in an interval.", "quantifier": "every number of antennas, directions, channels and channel blocks, every averaging of the channels, all values of data, model data and solutions, one, two or four polarizations per solution", "why_tests_cant": "Channels are assigned to blocks in two different ways, by number for solving and by frequency for applying; they differ only for averaging factors that do not fit the blocks. Tests have few channels and one averaging factor.", "anchors": ["ddecal/gain_solvers/BdaSolverBuffer.cc: ApplySolutions", "steps/BdaDdeCal.cc: DetermineChannelBlocks", "steps/BdaDdeCal.cc: ProcessDone", "ddecal/gain_solvers/SolveData.cc"]}
{"id": "C78", "title": "BdaDdeCal combines every buffer with its own model data, however late this comes", "statement": "BdaDdeCal accepts a run exactly if every buffer comes with the model data that is to be reused. Whenever the model data steps give their results (directly, later, or at the end), every buffer leaves once and in order, with for every direction the model data that was made for that buffer or came with it, or with the sum of these as visibilities if only predictions are asked for, and with the flags and weights that it came with; and no buffer waits if all its model data is there.", "quantifier": "every list of buffers, every number of directions, every mix of steps and reused directions, every schedule in which each step gives its results in order", "why_tests_cant": "The delays of the steps depend on buffer sizes and settings; tests use steps that give their results at once.", "anchors": ["steps/BdaDdeCal.cc: process", "steps/BdaDdeCal.cc: ExtractResults", "steps/BdaDdeCal.cc: ProcessCompleteDirections", "steps/BdaDdeCal.cc: SumModels", "steps/BdaDdeCal.cc: finish"]}
{"id": "C79", "title": "The steps that are asked for with modelnextsteps are applied to the model data", "statement": "The model data of every direction, from a column, a facet or a sky model, passes through exactly the steps that the user lists for that direction, otherwise those listed for all directions, in the order of the list, before it is used for calibration, for regular and for BDA data.", "quantifier": "every parameter set, every list of columns, facets and directions", "why_tests_cant": "Steps that are left out change the values of the model without any error; tests that do not use these settings for every kind of source and data do not notice.", "anchors": ["steps/DDECal.cc: setModelNextSteps", "steps/DDECal.cc: updateInfo", "steps/BdaDdeCal.cc: InitializeModelStepChain", "steps/BdaDdeCal.cc: InitializeColumnReaders", "steps/BdaDdeCal.cc: InitializePredictSteps", "docs/schemas/DDECal.yml: modelnextsteps"]}
{"id": "C80", "title": "AOFlagger judges every time slot in its context and flags exactly what was found", "statement": "The AOFlagger step passes on every time slot once and in order, and changes only flags. All correlations of a visibility are flagged if it was flagged or interference was found in it in one of the windows that contain the time slot; every time slot is in a window with at least the overlap before and after it, as far as there is data. The counts are the numbers of visibilities that were flagged by the step, the statistics have every visibility once, and there is no very small last window.", "quantifier": "every number of time slots, every window size and overlap, every detection strategy, all flags", "why_tests_cant": "The windows depend on the number of time slots, memory and settings; tests have a few time slots and compare only total counts.", "anchors": ["steps/AOFlaggerStep.cc: process", "steps/AOFlaggerStep.cc: finish", "steps/AOFlaggerStep.cc: flag", "steps/AOFlaggerStep.cc: flagBaseline", "steps/AOFlaggerStep.cc: updateInfo"]}
{"id": "C81", "title": "ApplyCal corrects every visibility with the gains of its own antennas, time and channel", "statement": "When ApplyCal runs over a Measurement Set, every visibility V of antennas A and B becomes J_A V J_B^H with the (inverted) gains for its own time slot, channel and direction, however many time slots are buffered per update of the gains (timeslotsperparmupdate). If a gain is not finite, all correlations are flagged and data and weights stay; a newly flagged sample is counted once. Without updateweights the weights stay; with it they become the inverse of the variance of the corrected correlation.", "quantifier": "for all numbers of time slots, baselines, channels, directions, values of timeslotsperparmupdate, diagonal or full gains, weights and flags", "why_tests_cant": "Tests use a few time slots and constant gains; an index that is wrong by one at the end of a buffer of time slots only shows for particular numbers of time slots, and the propagation of weights is a formula over all values.", "anchors": ["steps/OneApplyCal.cc: OneApplyCal::process, CorrectionLoop, CalculateBufferTimes", "steps/ApplyCal.cc: ApplyCal::ApplyDiag, ApplyFull, ApplyWeights"]}
{"id": "C82", "title": "Substeps of ApplyCal inherit the settings of the step", "statement": "With applycal.steps=[a,b] there is one correction for every name, in that order, and every parameter of substep a has the value given as applycal.a.parameter, else the value given as applycal.parameter, else the documented default; steps=[] is the same as not giving steps.", "quantifier": "for all parsets, names of steps and substeps, and values", "why_tests_cant": "There is one lookup per parameter and any combination of parameters can be given for the step or the substep; tests give a few parameters for the substep itself.", "anchors": ["steps/ApplyCal.cc: ApplyCal::ApplyCal", "steps/OneApplyCal.cc: OneApplyCal::OneApplyCal", "docs/schemas/ApplyCal.yml"]}
{"id": "C83", "title": "AntennaFlagger flags exactly the baselines of antennas that are outliers", "statement": "AntennaFlagger sets all flags of a baseline if one of its antennas is an outlier (within its station, or because its station is one among the stations) and changes no other flag. The outliers depend only on the visibilities of the pairs of antennas, not on the order of the baselines. Outliers are found in at most max_iterations rounds, each comparing the values that are left with their median, plus or minus sigma standard deviations of the values that are left. Baselines in any other order than one of the two known ones are refused.", "quantifier": "for all numbers of antennas, stations and correlations, both baseline orders, all visibilities, flags, thresholds and numbers of iterations", "why_tests_cant": "Tests use one small data set with one outlier; the indices depend on the order of the baselines and the number of antennas, and the iterations only matter for outliers that hide each other.", "anchors": ["steps/AntennaFlagger.cc: AntennaFlagger::updateInfo, process", "antennaflagger/Flagger.cc: FindOutliers, ComputeStats, FindBadAntennas, FindBadStations", "docs/schemas/AntennaFlagger.yml"]}
{"id": "C84", "title": "Several measurement sets are combined in frequency, slot by slot and channel by channel", "statement": "When several measurement sets are given as input, every time slot of the combination has, in the channels of a measurement set, the visibilities, flags and weights that this measurement set has for that time, and the frequency and width of every channel are those of the measurement set it comes from. With orderms the measurement sets are put in order of frequency. A measurement set that does not exist gives flagged zero data with zero weight and the frequencies of its place, and is only accepted with missingdata=true and orderms=false. Measurement sets that do not match are refused.", "quantifier": "for all numbers of measurement sets, channels, baselines and time slots, whichever measurement sets do not exist", "why_tests_cant": "Tests combine two or three small measurement sets with equal times; whether every channel comes from the right one depends on the numbers of channels, the order and which ones are missing.", "anchors": ["steps/MultiMsReader.cc: MultiMsReader::MultiMsReader, updateInfo, ValidateBands, SortBands, HandleBands, FillBands, process, GetWeights", "docs/schemas/Input.yml"]}
{"id": "C85", "title": "Updating a measurement set writes what changed to its own rows and channels, and nothing else", "statement": "Updating the input measurement set (msout=. or an out step with the same name) writes the visibilities, flags and weights that changed, or for which a column is given, in the selected channels of the rows of the time slot, each baseline in its own row. No other row, channel or column changes. Reading the same channels again gives exactly what was written; writing back what was read changes nothing that is read. Inserted time slots write nothing. Flags that are seen for channels outside the selection, or in other flag columns, stay as they are. With storage manager dysco flagged visibilities are written as NaN with weight zero.", "quantifier": "for all measurement sets, rows, selections of channels, columns, fields to write and sequences of time slots", "why_tests_cant": "Tests update a small measurement set and compare a few columns; that no other channel or row changes, for any selection, and that the flags of whole rows are right after it, needs all cases.", "anchors": ["steps/MSUpdater.cc: MSUpdater::process, putFlags, putData, putWeights, updateInfo, getRequiredFields, SetFieldsToWrite", "steps/MsReader.cc: MsReader::process", "docs/schemas/Output.yml"]}
{"id": "C86", "title": "Station UVW coordinates give back the UVW coordinates of every baseline", "statement": "Steps that predict visibilities turn the UVW coordinates of the baselines into UVW coordinates of the stations. For any set of baselines, in any order and direction and with any number of unconnected groups of stations, the difference of the coordinates of the two stations of a baseline is the coordinate of that baseline. The same holds when antenna positions are given and only the longest baselines that connect the stations are used, provided no two antennas are at the same position. The baselines that are used are then the longest: the antennas of any baseline are connected by used ones that are not shorter.", "quantifier": "for all numbers of antennas, lists of baselines, consistent UVW coordinates, antenna positions, and orders that sort the baselines by length", "why_tests_cant": "The unit tests split the coordinates of a few fixed arrays. The claim is about every graph of baselines, including unconnected ones and ones with baselines of equal length.", "anchors": ["base/Simulate.cc: SetupUvwSplitting", "base/Simulate.cc: GetBaselineSelection", "base/Simulate.cc: GetBaselinesSortedByLength", "base/Simulate.cc: SplitUvw", "steps/OnePredict.cc: OnePredict::process"]}
{"id": "C87", "title": "Predicted visibilities are the sum over the components of the sky model", "statement": "Predicting adds to every cross-correlation, channel and correlation product the sum over the components of their coherency times the phase factor of the baseline for the direction of the component relative to the phase centre, times the amplitude for its size and the smearing factors that were asked for. Autocorrelations are left alone. The order of the components does not matter and they may be predicted in parts. A baseline with its stations exchanged gets the conjugate with XY and YX exchanged. A point source at the phase centre has its own coherencies everywhere. A Gaussian without a size is a point source. Spectra follow the power law or polynomial of the sky model and the rotation measure.", "quantifier": "for all directions, arrays of stations and baselines, frequencies, channel widths, lists of point and Gaussian components and smearing settings", "why_tests_cant": "Unit tests compare a few sources and baselines with stored numbers. They cannot cover all lists of components, settings and array layouts; the combination of all correlations with smearing in time only is not tested.", "anchors": ["base/Simulator.cc: Simulator::visit", "base/Simulator.h: radec2lmn", "base/PointSource.cc: PointSource::stokes", "docs/schemas/Predict.yml: correcttimesmearing"]}
{"id": "C88", "title": "Changing the phase centre keeps the baselines and what is seen on them", "statement": "A change of the phase centre gives the UVW coordinates of the same baselines for the new centre, with the same lengths, and multiplies the data of a channel by the phase factor of the difference of old and new w in wavelengths, which leaves amplitudes alone. Steps after each other do what one step to the last centre does, and a step without a centre brings back the original data and coordinates. Shifting predicted visibilities gives the visibilities that are predicted with the new centre and coordinates.", "quantifier": "for all directions, sequences of steps, frequencies, UVW coordinates, data and lists of components with absolute orientation", "why_tests_cant": "Tests shift to one or two fixed directions. The claims are about all pairs and sequences of directions and relate two separate parts of the code, which use different formulas.", "anchors": ["steps/PhaseShift.cc: PhaseShift::updateInfo", "steps/PhaseShift.cc: PhaseShift::process", "steps/PhaseShift.cc: PhaseShift::fillEulerMatrix", "base/Simulate.cc: rotateUVW"]}
{"id": "C89", "title": "ApplyBeam changes every visibility by the beams of its own antennas, and the metadata tell which beam", "statement": "ApplyBeam multiplies every visibility by the inverse beams (or, with invert=false, the beams) of the stations with the names of its two antennas, at its time, frequency and the requested direction; stations in skipstations count as having no beam, and weights change only with updateweights. A beam that was corrected for before is first put back. With usemodeldata, each named set of visibilities gets the beam of its own direction and the main data stay as they are. Putting back a beam is refused unless it is the one corrected for. After any sequence of ApplyBeam and Predict steps, the main visibilities, seen through the beam told by the metadata, are the uncorrected visibilities.", "quantifier": "for all telescopes, sets of antennas and baselines, frequencies, times, invertible station responses, data, settings and sequences of steps", "why_tests_cant": "Tests compare a few corrected values for one telescope and one or two steps; they cannot cover all subsets of stations and all sequences of corrections and predictions.", "anchors": ["steps/ApplyBeam.cc: ApplyBeam::updateInfo", "steps/ApplyBeam.cc: ComputeBeam", "steps/ApplyBeam.cc: ApplyBeamToData", "steps/ApplyBeam.cc: ApplyBeam::ProcessData", "steps/ApplyBeam.cc: ApplyBeam::ProcessModelData", "base/Telescope.cc: SelectStationIndices", "steps/OnePredict.cc: OnePredict::updateInfo"]}
{"id": "C90", "title": "A prediction is the sum over its sources seen through their beams, and goes where the operation says", "statement": "For each time slot the step predict makes, for every baseline and channel, the sum over all sources of the sky model of the visibility of the source seen through the beams of the two antennas in the direction of its patch, with the beam of a time at most half of beam_interval away. This does not depend on how the sources are divided over threads or on the order in which the threads finish, and one number per visibility gives the same as four if all sources are unpolarized and only the array factor is used. The operation replace puts the prediction, with the corrections of applycal, in the place of the input visibilities; add and subtract add it to them or subtract it from them. With outputmodelname the result gets that name instead, and the input visibilities and all others stay as they are. h5parmpredict does this for the sum over all directions, each with its own corrections.", "quantifier": "for all sky models, beams, baselines, channels, divisions of the sources over threads, orders of the threads, numbers of time slots, input visibilities, corrections and lists of directions", "why_tests_cant": "Tests use a few sources and one or two threads, and compare with a tolerance; that the cached beams of each thread are those of its own patches at every time slot, for every division of the sources, and that the corrections go to the predicted visibilities for each choice of parameters, needs a proof.", "anchors": ["steps/OnePredict.cc: OnePredict::process, PredictSourceRange, PredictWithSourceParallelization, addBeamToData, SetOperation, SetApplyCal", "base/PredictBuffer.h: PredictBuffer::Resize", "steps/H5ParmPredict.cc: H5ParmPredict::H5ParmPredict, process", "base/DPBuffer.h: DPBuffer::TakeData, GetData", "steps/OneApplyCal.cc: OneApplyCal::CorrectionLoop"]}
{"id": "C91", "title": "Scaledata multiplies every visibility by the root of the product of the factors of its two stations", "statement": "The step scaledata multiplies every visibility by the square root of the product of the scale factors of the two stations of its baseline. The factor of a station is the polynomial in the frequency in MHz with the coefficients of the first pattern of the parameter stations that matches its name, or the default coefficients for the antenna set if none does. It is multiplied by the nominal number of tiles or dipoles over the number in use if scalesize is true, or if scalesize is not given and the default coefficients are used. A step is refused if and only if there are not as many vectors of coefficients as patterns, a vector is empty, or the numbers of tiles are needed and are not there for exactly the stations of the data.", "quantifier": "for all lists of patterns and coefficients, station names, antenna sets, frequencies, tables of antenna fields, baselines and data", "why_tests_cant": "Tests have one measurement set with a few stations and one or two lists of patterns; the choice of pattern, the rule for the size and the polynomial have to be right for every combination.", "anchors": ["steps/ScaleData.cc: ScaleData::ScaleData, updateInfo, fillSizeScaleFactors, process", "steps/ScaleData.h: ScaleData"]}
{"id": "C92", "title": "The axes of the parameter database: finding, subsetting, compressing, combining and mapping cells", "statement": "Looking up a point on an axis gives the cell that contains it, wherever the search is told to start: a point on a border belongs to the right or the left cell as asked, and an exception is thrown if no cell contains the point. The subset of an axis for an interval has exactly the cells that have points in it, and the default axis if there are none. Compressing joins each row of cells into one. The union of two axes contains the cells of both at the indices given back, with one extra cell if there is a hole between them; it exists exactly if the cells in the overlap are the same, and otherwise an exception is thrown. Mapping an axis on another one gives for each cell the cell with its center, and the borders of the rows of cells that are mapped on the same one.", "quantifier": "for all axes with any number of cells of any widths, all points, intervals, factors and hints", "why_tests_cant": "Tests use a few regular axes of a handful of cells; the rules have to hold for points on any border, axes that overlap in any way and any hint.", "anchors": ["parmdb/Axis.cc: Axis::setup, find, combine, add, makeAxis, subset, operator==, checkIntervals, RegularAxis::doSubset, RegularAxis::compress, OrderedAxis::doSubset, OrderedAxis::compress", "parmdb/Axis.h: Axis::locate, range", "parmdb/AxisMapping.cc: AxisMapping::AxisMapping"]}
{"id": "C93", "title": "The values of a parameter of the parameter database on a grid", "statement": "A parameter that is a polynomial has, on each cell of the grid asked for, the value of the polynomial of the domain of the center of the cell, at the center scaled to that domain; rescaling a polynomial to another domain does not change its value at any point, so that values made from a default polynomial on any solve grid are those of the default polynomial on its own domain. A parameter with scalar values has on each cell the stored value of the cell in which its center lies; an exception is thrown exactly if there is no such value. A single value holds everywhere, and the default does if there are no values and defaults are asked for. Values are handed out in the shape of the grid. A grid asked for by start, end and step goes from the start to the end with equal cells of the width closest to the step.", "quantifier": "for all sets of domains with any grids of values or coefficients of any degree, all grids asked for, all start and end values and steps", "why_tests_cant": "Tests evaluate a few small grids and polynomials of low degree; the loops over borders, hints and strides and the binomial sums have to be right for all sizes and all ways in which the grids overlap.", "anchors": ["parmdb/Parm.cc: Parm::getResult, getResultCoeff, getResultScalar, fillArrayPV", "parmdb/ParmValue.cc: ParmValue::rescale, scale2, fillPascal, ParmValueSet::createValues", "parmdb/ParmFacadeLocal.cc: getValues, doGetValues", "parmdb/ParmFacade.h: getValuesMap"]}
{"id": "C94", "title": "The iterations of gain calibration estimate the gains of the stations", "statement": "In each iteration of gaincal, the new gain of each station (and feed) is the one value, among those the calibration type allows, that minimises the squared differences between data and model, with the gains of the other stations held as they were; for fulljones the new 2x2 matrix is the one minimiser. A station is flagged only if its visibilities do not determine a gain, a flagged station is left alone, and the result does not depend on which thread solves which station first. If the current gains reproduce the data exactly, the iterations stop and the gains are kept; they stop otherwise only if the last two estimates are within the tolerance of each other, in which case the solution is the last estimate (of amplitude one for phase-only types). Iterations are given up only if stalling is to be detected, and not before the fifth. Initial gains make the model as strong as the data; with propagated solutions, the gains of flagged stations restart from the mean amplitude of the others.", "quantifier": "for all visibilities and model visibilities, all numbers of stations, times and channels, all calibration types, all gains and flags before the iteration, all orders in which the threads come to the stations, and all sequences of iterations", "why_tests_cant": "A test compares the solutions of one small measurement set, after all iterations, with stored ones. That each estimate is the minimum for any data, and that the result does not depend on the interleaving of the threads, cannot be seen from runs; stations with partly dead feeds, or a last iteration that has not converged, are not in the test data.", "anchors": ["base/GainCalAlgorithm.cc: GainCalAlgorithm::doStep_unpolarized, doStep_polarized, doStep, relax, init, getSolution, getAverageUnflaggedSolution", "base/GainCalAlgorithm.h: GainCalAlgorithm", "steps/GainCal.cc: GainCal::calibrate"]}
{"id": "C95", "title": "Gain calibration takes in the selected data and hands them on corrected", "statement": "For each solution interval and group of channels, gaincal estimates gains from exactly the data and model visibilities of the selected baselines between different stations that are not flagged, times the root of their weights, each also conjugated with the stations exchanged; every channel is in one group. If the data are the model as seen through Jones matrices of the stations (a number per station or feed, or a 2x2 matrix with equal weights for the correlations), the conjugate transposes of these reproduce all the data that are used exactly. Whenever the gains reproduce the data, applying the solutions gives the model visibilities; data of a station without solution are flagged and left as they are. Buffers are handed on once, in order, with the solutions of their own interval, and the last interval has what is left.", "quantifier": "for all data, models, weights, flags, baselines, selections and channel groupings, all orders in which the threads come to the channels, all calibration types that are numbers or matrices, and all numbers of buffers and lengths of the interval", "why_tests_cant": "Tests run gaincal on one measurement set with four correlations and equal weights and compare the solutions with stored ones. Other numbers of correlations, weights that differ between correlations, or solint=0 with applysolution are not run, and a run does not show whether the result depends on the threads.", "anchors": ["steps/GainCal.cc: GainCal::process, fillMatrices, calibrate, invertSol, applySolution, finish, updateInfo", "steps/ApplyCal.cc: ApplyCal::ApplyDiag, ApplyScalar, ApplyFull"]}
{"id": "C96", "title": "Applying the solutions file of a gain calibration gives the gains that were solved", "statement": "If gain calibration has written its solutions, possibly several times to the same ParmDB, then applying that ParmDB gives, for each station that was used, the Jones matrices of the last calibration: all elements for fulljones, the diagonal for diagonal, diagonalphase and diagonalamplitude, one number for scalarphase and scalaramplitude, and for tec and tecandphase the phase of the fit at any frequency. A station that was not used is left as it is. Each solution interval is in the ParmDB once, with its start and its end, whatever the number of solutions that are written at a time. An H5Parm has a table for each quantity, with each number at the place that belongs to its time, frequency, station and polarization, with weight zero if there is no solution, and with the middle of the interval as its time.", "quantifier": "for all types of gain calibration, all solutions, all lists of earlier runs, all stations with distinct names, all numbers of time slots, solution intervals and update intervals", "why_tests_cant": "The names that are written depend on the type of calibration and on what is already in the file; a test applies a few files, not all types after all histories and all station selections.", "anchors": ["steps/GainCal.cc: GainCal::initParmDB, writeSolutionsParmDB, writeSolutionsH5Parm, makeSolTab, parmName, process, finish", "steps/OneApplyCal.cc: OneApplyCal::updateInfo, updateParmsParmDB", "parmdb/ParmDBCasa.cc: ParmDBCasa::deleteValues"]}
{"id": "C97", "title": "The constraints of DDECal give solutions of the promised form", "statement": "Antennas of a group (antennaconstraint, coreconstraint) get the mean of the valid solutions of the group, in every channel block, and other antennas keep theirs. With antenna_averaging_factors every block of as many consecutive sub-solutions of a direction as the factor of the antenna says gets the mean of its valid solutions; settings with a missing or zero factor, or one above the number of sub-solutions, are refused. Constraints on phases divide by the solution of the first antenna with enough valid solutions, which gets 1. Smoothing (smoothnessconstraint) gives the mean of the valid solutions over frequency, weighted with the weights and with a Gaussian of the documented size, which depends on frequency, antenna and direction; it keeps constant solutions, and solutions that are not valid or have weight zero do not count.", "quantifier": "for all solutions with any of them not valid, all groups, factors, numbers of sub-solutions per direction, channel frequencies that increase, kernel sizes, reference frequencies and exponents, and weights that are not negative", "why_tests_cant": "Means over parts of arrays go wrong for particular combinations of groups, block sizes that do not divide the number of sub-solutions, invalid solutions and channel spacings; a test has one of each.", "anchors": ["ddecal/constraints/AntennaConstraint.h: AntennaConstraint::Apply", "ddecal/constraints/AntennaIntervalConstraint.cc: AntennaIntervalConstraint::Initialize, Apply", "ddecal/constraints/Constraint.cc: Constraint::ApplyReferenceAntenna", "ddecal/constraints/KernelSmoother.h: KernelSmoother::Kernel, Smooth", "ddecal/constraints/SmoothnessConstraint.cc: SmoothnessConstraint::Apply", "docs/schemas/DDECal.yml"]}
{"id": "C98", "title": "DDECal's rotation constraints give rotations and diagonals of the documented form", "statement": "In the rotation+diagonal mode the solution of each antenna with valid data becomes a diagonal matrix of the type given by rotationdiagonalmode, times a rotation by the stored angle, which lies in [-pi/2, pi/2); solutions that already are of that form are kept. With rotationreference the first antenna that has valid data gets angle 0 and the angles of the others become relative to it. Divergence is found when the amplitude of an antenna is more than a factor of 5 from the mean over the antennas, and then all antennas are flagged for that interval. In the rotation mode a scaled rotation becomes a rotation. In the Faraday rotation mode the fit gets twice the angle against the square of the wavelength, and the solutions become rotations by the fitted rotation measure times that square, keeping diagonals of the type given by faradaydiagonalmode. The stored weights are those of the antenna, channel block and sub-solution. Leakage solutions have ones on the diagonal.", "quantifier": "for all Jones matrices, diagonals and angles, all sets of antennas with and without valid data, all numbers of antennas, sub-solutions, channel blocks and polarizations, and all increasing frequencies", "why_tests_cant": "The angle of a rotation is ambiguous by half turns, so that errors show for particular angles and signs only; the means, the flags and the orders of arrays go wrong for particular mixtures of amplitudes, invalid antennas and sub-solutions.", "anchors": ["ddecal/constraints/RotationConstraint.cc: RotationConstraint::SetWeights, Apply", "ddecal/constraints/RotationConstraint.h: FitRotation, SetRotation", "ddecal/constraints/RotationAndDiagonalConstraint.cc: Limit, ConstrainDiagonal, SetWeights, FitRotationAndDiagonal, SetChannelWeights, Apply", "ddecal/constraints/FaradayConstraint.cc: FaradayConstraint::SetWeights, SetSubSolutionWeights, PerformFit", "docs/schemas/DDECal.yml"]}
{"id": "C99", "title": "Demixing uses the mixing of the directions that is in the data, and subtracts the sources as they appear in the target direction", "statement": "If the data of a baseline are a sum of sources that are constant after a shift to their own directions, then the averages toward all directions are the mixing matrix of the Demixer times these sources, for every average that is not flagged; the matrix is Hermitian with ones on its diagonal, and where everything is flagged there is no mixing. After the projection the averages depend on the directions with a source model only; with ignoretarget that holds if nothing comes from the target, and if the projection is not possible nothing changes. The equations that are given to the solver have as residual the data minus the mixture of the model visibilities with the gains of the two stations, and their derivatives are the exact changes of that mixture for each of the unknowns; unknowns that are not in an equation do not matter to it. The sources are subtracted from the cross correlations with their gains and their part in the target direction, so that with the right gains the mixture of the other directions remains; autocorrelations are not changed.", "quantifier": "for all numbers of directions, stations, time slots and channels, all averaging factors, all phases, flags, weights, sources, models and gains", "why_tests_cant": "Mixing factors with a wrong conjugate or a transposed matrix give the right answer for symmetric cases and for two directions with real factors, and a wrong derivative still converges, only slower or to another solution.", "anchors": ["steps/Demixer.cc: addFactors, makeFactors, deproject, demix", "base/EstimateMixed.cc: makeIndex, estimate", "base/Apply.cc: apply", "base/SubtractMixed.cc: subtract", "steps/Averager.cc: process, average", "steps/PhaseShift.cc: process"]}
{"id": "C100", "title": "Demixing handles every time slot once, with the solution of its own time", "statement": "The Demixer gives, for whatever number of time slots, the averages of consecutive groups of timestep slots, in order, all full but the last. There is one solution for each group of demixtimestep slots, made of the data and the mixing factors of these slots; from each average of the output the sources are subtracted once, with the solution of the interval that it is in, and with mixing factors of its own slots. This does not depend on ntimechunk, and no buffer is written past its end for settings that are accepted. The directions are the sources to subtract, the other sources with a model, and the sources without one; the target is last; the sources with a model have the patch with their name. Sources of othersources need not be in the sky model.", "quantifier": "for all numbers of time slots, all settings of timestep, demixtimestep or demixtimeresolution, and ntimechunk, and all lists of sources", "why_tests_cant": "The counters interact modulo the two averaging factors and the chunk size; errors show only for particular remainders at the end of the data, for data that are shorter than an average, and by reading stale buffers.", "anchors": ["steps/Demixer.cc: Demixer::Demixer, updateInfo, process, finish, handleDemix, demix", "steps/MultiResultStep.cc: process", "steps/Averager.cc: process, finish", "sky_model/SkyModelFunctions.cc: MakePatches", "docs/schemas/Demixer.yml: othersources"]}
{"id": "C101", "title": "The solver and constraints of DDECal are the ones that the settings ask for", "statement": "Names of modes, algorithms and parts of the data are read without regard to case; all documented modes are accepted, and the name that is shown for a mode is one that can be used as the setting. DDECal makes a solver for every combination of mode, algorithm, data use and GPU setting, or refuses it; there is no other outcome. The solver has as many gains per antenna as the mode, solves for phases only exactly for the phase modes, and uses the part of the data and the device that is asked for. It has exactly the constraints that the settings ask for, each once, in a fixed order: antennas, intervals, frequencies, mode. The hybrid algorithm is a direct solver with a sixth of the iterations, at least one, and then an iterative one, with the same constraints.", "quantifier": "for all settings, all strings as names, all station names, and DP3 built with or without CUDA and libdirac", "why_tests_cant": "There are thousands of combinations of mode, algorithm, data use, device and constraints; the tests have a few, and what is silently ignored does not show in the result of a run.", "anchors": ["base/CalType.cc: StringToCalType, ToString", "base/CalType.h: GetNPolarizations", "ddecal/Settings.cc: ParseSolverAlgorithm, ParseSolverDataUse, ToString", "ddecal/SolverFactory.cc: CreateSolver, CreateScalarSolver, CreateDiagonalSolver, CreateFullJonesSolver, AddConstraints", "ddecal/gain_solvers/HybridSolver.cc: AddSolver"]}
{"id": "C102", "title": "Constraints of DDECal act on the antennas that the settings select", "statement": "With coreconstraint, all antennas within that distance from the first antenna get the same solution, and no other antenna changes. With antennaconstraint, the antennas of a group get the same solution; names that no antenna has are ignored, and a group with less than two different names is refused. Averaging factors per antenna are accepted exactly if each is between one and the largest number of sub-solutions of a direction. The smoothing factor of an antenna is its own factor times the reference distance over its distance from the reference antenna; the reference antenna has the largest distance factor of the others, and without reference distance this factor is one. An unknown reference antenna, a negative factor and an unreadable item are refused.", "quantifier": "for all numbers, names and positions of antennas, all groups of names, all distances and factors, and all solutions", "why_tests_cant": "Tests have a few antennas, all used, and one constraint at a time; a wrong index or a constraint that is ignored gives a plausible solution for another antenna.", "anchors": ["ddecal/SolverFactory.cc: DetermineCoreAntennas, InitializeAntennaCoreConstraint, InitializeAntennaConstraint, CalculateAntennaSmoothnessFactors, InitializeSolverConstraints, AddConstraints", "ddecal/Settings.cc: ReadAntennaConstraint", "ddecal/constraints/AntennaIntervalConstraint.cc: Initialize", "steps/DDECal.cc: updateInfo"]}
{"id": "C103", "title": "DDECal starts every solution from the gain of the initial solutions for its direction, antenna and channel block", "statement": "With initial solutions and without solutions of an earlier interval, every gain of every solution is the one that the H5Parm file has for the direction of that solution, the antenna and the channel block: the gain of full-Jones tables, or the product of the gains of all tables. All solutions of a direction within an interval start from the same gain. Without initial solutions every solution is one, the unit matrix if it has four gains. The previous content of the solutions has no effect, and no gain is read or written outside of its array, for all modes. Tables are taken as full Jones exactly if they are an amplitude table with four polarizations and a phase table. Direction-dependent smoothing factors are given to the solutions of their direction.", "quantifier": "for all numbers of directions, solutions per direction, antennas, channel blocks and tables, all names and values of the tables, and all previous contents", "why_tests_cant": "The test of initial solutions uses one file whose tables fit the mode and one solution per direction; a wrong index or a mode that does not fit the tables gives gains of another antenna or direction, from which most solves still converge.", "anchors": ["ddecal/InitialSolutions.cc: InitialSolutions, Read", "ddecal/Settings.cc: GetNSolutions, GetExpandedSmoothnessDdFactors", "steps/DDECal.cc: InitializeSolutions"]}
{"id": "C104", "title": "The TEC constraint of DDECal replaces phases by those of the TEC that it reports", "statement": "With mode tec or tecandphase, the new solutions of an antenna have the phases of the reported TEC and phase offset at every frequency; the offset is zero for mode tec. The reported error is the mean distance on the circle, with weights, between new and old phases of the finite solutions, and the reported weight is the sum of their weights. The TEC is within one step of the grid from the best point of the grid, and never beyond 4.78 TEC units. If phases are exactly those of a TEC and an offset, up to whole turns, the offset that is fitted for that TEC is exactly this one and the cost is zero; with noise it is the mean of the phases. An antenna without finite solutions is not given a TEC.", "quantifier": "for all numbers and values of frequencies, phases and non-negative weights, for both modes and all accuracies, in exact arithmetic", "why_tests_cant": "Tests have noiseless phases of a few TEC values; what the fit does with phases around half a turn, with missing channels, or between the steps of its loops shows only in specific combinations of values.", "anchors": ["base/PhaseFitter.cc: TEC1ModelCost, TEC2ModelCost, fitTEC2ModelBeta, bruteForceSearchTEC1Model, bruteForceSearchTEC2Model, ternarySearchTEC1ModelAlpha, ternarySearchTEC2ModelAlpha, FitDataToTEC1Model, FitDataToTEC2Model", "base/PhaseFitter.h: TEC2ModelFunc, TEC2ModelFuncWrapped, TEC1ModelFuncWrapped", "ddecal/constraints/TecConstraint.cc: TecConstraint::Apply"]}
{"id": "C105", "title": "A grid of the parameter database that is made from domains or grids has exactly their cells", "statement": "A grid that is made from domains in order of row and column has these domains as its cells: cell number n is domain n, number and (column, row) of a cell belong together, and listing the domains of the grid gives the same domains in the same order, after the ones already in the list. Domains that span a rectangular grid in ascending order are always accepted; others are refused with an exception. An axis is regular exactly if its intervals follow each other and are equally wide. A grid that is made from grids has exactly the cells of these grids, none of them twice; grids that fill rows and columns in ascending order with equal axes are always accepted, and the new axis is regular exactly if theirs are and all steps are equal. With sorting, the domains of a rectangular grid can be given in any order and give the same grid.", "quantifier": "for all lists of domains and of grids, all numbers of rows and columns, equal or different widths and gaps between them, with and without asserts, in exact arithmetic", "why_tests_cant": "Tests make a few grids, mostly with at least as many columns as rows and with asserts compiled in; whether other shapes lose domains or write outside of an array does not show in them.", "anchors": ["parmdb/Grid.cc: GridRep::setup(const std::vector<Box>&), GridRep::setup(const std::vector<Grid>&), GridRep::GridRep, GridRep::combineAxes, Grid::Grid(const std::vector<Grid>&, bool), Grid::toDomains", "parmdb/Grid.h: getCellId, getCellLocation, getCell, getBoundingBox", "parmdb/Axis.cc: Axis::setup"]}
{"id": "C106", "title": "A sky model finds every patch by its name and refuses names that exist", "statement": "After any calls that add patches and sources and update patches, asking for a patch by its name gives the last patch that was added with this name, with its last position and brightness, and an exception for a name that was never added. The names of the patches are given in ascending order, each once, and a pattern selects from them in the same order. A call that checks is refused exactly if the name of the source or of the patch that it adds exists, and a refused call changes nothing; if all calls check, every name belongs to one patch and one source at most, and every patch in the list is found by its name. What is added comes last, and updating a patch changes its position and brightness only.", "quantifier": "for all sequences of calls, with and without checks, also after refused calls, and all names and patterns", "why_tests_cant": "Tests add a few patches to a new sky model; that the index of names stays consistent with the list of patches is an invariant of all sequences of calls.", "anchors": ["sky_model/SkyModel.cc: SkyModel::addSource, SkyModel::addPatch, SkyModel::updatePatch, SkyModel::GetPatch, SkyModel::GetPatchNames, SkyModel::FindPatches", "sky_model/SkyModel.h: SkyModel", "sky_model/PatchInfo.h: PatchInfo"]}
{"id": "C107", "title": "Boxes of the parameter database behave as sets of points", "statement": "A box contains another one exactly if all points of that one, with its border, are in it or on its border. A box intersects another one exactly if a point of it or of its border is inside of the other one. The points inside of the intersection of two boxes are those inside of both, and the intersection is empty exactly if there is no such point. The union is the smallest box that contains both. A box made from center and width has that center and width. The order used to sort boxes is strict and transitive, and only boxes that start at the same point have no order.", "quantifier": "for all boxes, overlapping, touching, disjoint, nested or degenerate, and all points, in exact arithmetic", "why_tests_cant": "Tests compare a few boxes; equivalence with all points of the plane, and minimality of the union among all boxes, are universal statements.", "anchors": ["parmdb/Box.cc: Box::Box, unite, intersect", "parmdb/Box.h: intersects, contains, empty, operator&, operator|, operator<"]}
