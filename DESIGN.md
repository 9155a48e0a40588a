# Formal model of blip-radar/vatsim-parser

## Approach

Each Rust source file is modelled by total Gallina functions.  Every definition of the
model cites the file and lines of /repo it models.  `Result` and `Option` stay data, a
panic is the value `Panic` of the type `outcome`, `&mut` becomes a returned value, and
loops become structural recursion, folds, or fuel with an explicit out-of-fuel value
that a theorem excludes.

For a part `X` of the code there are up to four kinds of files in `rocq/theories`:

* `X.v`: the model, function by function;
* `SpecX.v`: the vocabulary in which the properties are stated; it uses the data types
  of the model and, where noted below, number parsing, but none of its functions;
* `XProofs.v` and the like: lemmas;
* `PropX.v`: the property theorems `Cnn_...`, each with `Print Assumptions` beneath,
  and `Example Cnn_..._nonvacuous` with concrete data that meets the hypotheses.

Where the code does not do what a user would expect, the expectation is refuted in the
model (`..._refuted`, with a witness that is evaluated by the kernel) and what does hold
is proved.

## Modelling decisions

* **Text.** A Rust `String` is a list of Unicode code points (`text := list N`).  Where
  the code uses byte lengths or offsets (`len()`, `split_at`), the model computes them
  with the UTF-8 length of each code point.
* **File bytes** are lists of numbers below 256.  `read_to_string` (lib.rs:25-33) is
  modelled down to the bytes: UTF-8 with or without byte order mark, UTF-16 with byte
  order mark, else windows-1252, as `encoding_rs` documents.
* **Floats.** `f64` and `f32` are the standard library's axiom-free `SpecFloat` (radix 2,
  IEEE 754, round to nearest even).  `str::parse::<f64>` is the correctly rounded value
  of the decimal; `{:.3}` and the like are the correctly rounded decimal.  Flocq is used
  only in proofs of numeric facts (FloatReal, DmsReal, Fixed, SectorIndexProofs).
* **Integers** are `N` and `Z` with explicit ranges; parsing returns `None` outside of
  the range of the Rust type, and arithmetic that could overflow is shown not to or is a
  `Panic`.
* **Hash maps** are association lists.  Whenever the code iterates over a `HashMap` or
  `HashSet`, the model takes the order as an argument (any permutation of the entries)
  and the theorems hold for every order, or the dependence is refuted to be absent (C53).
* **pest.** The grammars of src/pest are transcribed rule by rule as data (Grammars.v)
  and interpreted by a PEG interpreter that follows the code pest_generator emits:
  ordered choice, greedy repetition, atomic, compound-atomic, non-atomic and silent
  rules, implicit white space and comments, `PUSH`/`POP`, lookahead, `SOI`/`EOI` and the
  pairs produced.  SpecPeg.v gives the meaning of a grammar as a relation without
  bounds, and C01 proves that the interpreter decides it for all formats.  The walking
  code (`into_inner`, `next().unwrap()`, `as_str`) is modelled on the pairs.
* **Properties of parsers** are stated over the pairs of a text as given by SpecPeg:
  `parsed g start t kids` says that `t` is a text of the format and `kids` are the pairs
  inside the start rule.  The grammar is thus taken as the definition of the format.
  For the simplest formats (isec.txt, .prf) there is in addition a specification on
  lines of text without grammar, proved equivalent (C41, C43).  For .ese, .asr, symbology,
  ICAO, navdata, TopSky and airway.txt files there are specifications of written files,
  line by line and without grammar, that are proved to be read as they are written with
  any layout (C78-C85) and, composed with loading, to be what the adaptation has
  (C86-C90); for .sct files there is the round trip C48.
* **External code** appears as function arguments: `geo`'s `Polygon::contains`, the
  arrangement of the R-tree by `rstar`'s `bulk_load`, `str::to_uppercase`,
  `Path::canonicalize`, the current directory and the existence of files.  What is
  assumed of them is a hypothesis of the theorems (`contains_ok`, `load_ok`).

## Properties: what is modelled and how it is proved

| id | property | model | proof | status |
|----|----------|-------|-------|--------|
| C01 | Parsing always finishes | Peg, Grammars, SpecPeg | a boolean well-formedness check of a grammar (every rule defined, repetitions consume, bounded calls without consuming) implies that the interpreter returns a result for every text, and that it agrees with the relational semantics SpecPeg; the check is computed for each of the 14 formats | proved |
| C02 | Decoding of file bytes is total and exact | Decode | decoder and encoder inverse by induction on the scalar values; case analysis on validity and byte order marks | proved |
| C03 | EuroScope colour numbers round-trip | Colours | integer arithmetic with truncated division | proved |
| C04 | Colour (de)serialisation round-trips | Colours | characterisation of the accepted strings, then per-channel reasoning | proved |
| C05 | Colour lookup precedence | Colours | case analysis on the three sources; the built-in table is checked for duplicates by computation | proved |
| C06 | Merging .sct lines never changes what is drawn | Lines | fold invariant: drawn segments of the state = segments consumed | proved |
| C07 | Merging TopSky LINE rules never changes what is drawn | Lines | the same invariant for `MapLine` | proved |
| C08 | .sct sections: last one of each kind wins, colours accumulate | SctParse, SpecSct | fold over the sections of the parse tree; every list comes from the last section of its kind | proved |
| C09 | Coordinates written in the .sct style read back to the same text | Dms, DmsReal, Fixed | error analysis of every float operation with Flocq, then the correct rounding of the formatting | proved |
| C10 | Sign of parsed coordinates | Dms, DmsReal | monotonicity of rounding | proved |
| C11 | airway.txt: the graph stays well formed | Airways | invariant by induction over the insertion history | proved |
| C12 | airway.txt: merged edge attributes | Airways | refinement to a history specification | proved |
| C13 | Airway expansion returns a real path | Airways, AirwaysExpand | loop invariant of the traversal | proved |
| C14 | Airway expansion is complete on linear airways | Airways, AirwaysExpand | induction along the chain, in both directions | proved |
| C15 | Sector polygon uses every border segment exactly once | Sectors | loop invariant of Hierholzer's stack machine, for any start and adjacency order | proved |
| C16 | Sector polygon exists exactly for closed connected borders | Sectors | the invariant plus a degree and connectivity argument; termination by a measure | proved |
| C17 | Volumes are partitioned into sectors | Sectors, SectorsFromEse | partition invariant, for any hash iteration order | proved |
| C18 | find_sector finds the right sector | SectorIndex | brute-force specification over the reals; levels converted to f32 by correct rounding | proved |
| C19 | Index freshness | SectorIndex | induction over histories of queries, mutations, clones and rebuilds | proved |
| C20 | volumes_near_line misses nothing | SectorIndex | tree search = filter of all entries, for any arrangement of the tree | proved |
| C21 | Designator lookup precedence | Locations | case analysis on the lookup chain | proved |
| C22 | Coordinate waypoints: accepted language and value | Locations | characterisation of the regular expressions and the normal form | proved |
| C23 | Designator conversion and non-ASCII digits | Locations | witness for the panic; a panic needs a foreign digit | proved |
| C24 | contains_nav_element with duplicate names | Locations | direct; witness for the refutation | proved |
| C25 | Airport merging | Locations | map lemmas, for any hash order | proved |
| C26 | SIDs/STARs keep order and drop only unknown waypoints | Locations | induction over the procedures | proved |
| C27 | Constraint keys and partition | Constraints | fold invariants; witness for the collision | proved |
| C28 | No TopSky map is lost or overwritten | Maps, MapsFiling | invariant over the filing of maps; termination of the suffix search | proved |
| C29 | Map elements keep the style that was in effect | Maps | invariant: style in effect after a prefix of the rules | proved |
| C30 | Activation conditions form the intended disjunction of conjunctions | Maps | induction over the rules | proved |
| C31 | COORD buffers | Maps | invariant on the coordinate buffer | proved |
| C32 | Coordination timing resolution | Settings | case analysis | proved |
| C33 | Special use codes | Settings | octal ranges enumerated by induction | proved |
| C34 | Built-in line styles cannot be overridden | Settings | map lemmas; witness for the collision | proved |
| C35 | Symbol fallback | Settings | case analysis for every symbol; witness | proved |
| C36 | Map colours come from their own symbology entry | Colours | case analysis for every colour; witness | proved |
| C37 | .sct airway drawing | SctItems | induction over the segments; witness | proved |
| C38 | .sct coloured lines conversion | SctItems | induction over lines and groups | proved |
| C39 | .asr scalar settings: first occurrence wins, else default | Asr, SpecAsr | fold over the pairs: first occurrence | proved |
| C40 | ICAO files: first definition wins | Icao, SpecIcao | fold over the pairs: first definition | proved |
| C41 | .prf settings: last definition wins | Prf, SpecPrf | the language of the grammar is proved to be a line-by-line specification, then last occurrence | proved |
| C42 | .prf paths | Prf, Paths | component lists of paths | proved |
| C43 | isec.txt listing | Isec, SpecIsec | the language of the grammar is proved to be a line-by-line specification | proved |
| C44 | TopSky definitions precedence | TopskyParse, SpecTopsky | last definition of the concatenated pairs of both files | proved |
| C45 | Sector borders of .ese files | EseParse, SpecEse | fold over the pairs | proved |
| C46 | Visibility points of .ese positions | EseParse, SpecEse | fold over the pairs; witness for the lost point | proved |
| C47 | Parsers never panic | all parsers | every parse tree of the grammar has the shape the walking code expects (PegTree), so each parser returns exactly under a stated condition on its numbers (Verdict), and panics otherwise; witnesses | proved |
| C48 | Written .sct files are read back | SctWrite, SpecSctWrite | forward derivation of the pairs of every written item, section and file in the unbounded semantics of the grammar; numeric bound of C09; witnesses | proved |
| C49 | Line and label settings come from their own symbology item | Settings | case analysis for every setting | proved |
| C50 | Settings derived from TopSky and the profile | Settings | case analysis | proved |
| C51 | isec.txt round trip | Isec, IsecWrite, Fixed | written lines are recognised by the line specification; sorting; error of the formatting | proved |
| C52 | Paths of a profile exist exactly for the settings it has | Prf | case analysis; witness | proved |
| C53 | Plugin directories do not depend on the hash order | Prf | search over any order of the map; witness | proved |
| C54 | Wake turbulence, type and engine letters | Icao | finite case analysis over letters, unbounded over other texts | proved |
| C55 | airway.txt: the graph is built from exactly the segments of the file | AirwayTxt, SpecAirwayTxt | fold over the pairs | proved |
| C56 | .ese files: coordination points and procedures in order | EseParse, SpecEse | fold over the pairs | proved |
| C57 | Symbology files: the last definition counts | SymbologyParse, SpecSymbology | last definition of the pairs | proved |
| C58 | Maps of TopSky files | TopskyParse, SpecTopsky | structural induction over the pairs of a map; witnesses | proved |
| C59 | Settings of TopSky files | TopskyParse, SpecTopsky | last definition of the pairs; witness | proved |
| C60 | A profile loads if its eight files can be read | Adaptation, SpecAdaptation | inversion of the chain of reads and conversions; the conversions return (C16, C28, C30, C37) unless a designator has foreign digits | proved |
| C61 | TopSky and squawks are optional | Adaptation | inversion, then C33, C34, C35, C05; witness for the panic | proved |
| C62 | Only the files of the profile matter, each for its own parts | Adaptation | inversion of both loads and comparison part by part | proved |
| C63 | find_sector and volumes_at answer from the .ese file | Adaptation, Sectors, SectorIndex | C17 and C18 composed: the index holds exactly the definitions with owners and a closed border | proved |
| C64 | Loading the same files gives the same answers | Adaptation, Sectors | C17 for both orders; witness computed from a profile with all its files | proved |
| C65 | Overlays | Adaptation | case analysis, C18 for the new index; the libraries are function arguments | proved |
| C66 | adaptation.toml | Adaptation, Paths | component lists of paths; the libraries are function arguments | proved |
| C67 | The parts of a loaded adaptation come from their own files | Adaptation | inversion of the load, with the specifications of C05, C17, C21, C25 | proved |
| C68 | An adaptation survives its JSON form | Json, JsonAdaptation | codecs composed from combinators, each proved to read what it writes, also restated; the document is compared with one written out in the specification | proved |
| C69 | Exactly the documents of the schema are read | Json, JsonAdaptation | for each codec, by the structure of the schema | proved |
| C70 | Overlays decide the parts that they name, and no others | Json, JsonAdaptation, Adaptation | members of merged objects, and C68 part by part | proved |
| C71 | Every loaded adaptation survives its JSON form | Json, JsonAdaptation, Adaptation | invariants of every parser and conversion of from_prf (unique keys, ranges of integers, opaque colours) that leave only the floats; witnesses that load, refuted for all number formats | proved |
| C72 | Places are the same up to a millionth of a degree | Places, Float, SectorsFromEse | real-number error bounds of the rounding to millionths | proved |
| C73 | Maps with two keys are shown in JSON without collisions | TwoKey, Prf, Asr, SymbologyParse | first keys have no colon, from the grammars; joining is then injective | proved |
| C74 | The texts of airway points are read back | Places, AirwayTxt | forward derivation in the grammar, and the printing bounds of C51 | proved |
| C75 | squawks.json | Squawks, Json | a relation between documents and data for each combinator of the JSON reader | proved |
| C76 | The text of a coordination point | ConstraintShow | uniqueness of the decomposition of the text | proved |
| C77 | What a profile leaves unsaid is as in the default adaptation | Defaults, Adaptation | the parts of a loaded adaptation (C67) compared field by field with the transcribed defaults | proved |
| C78 | Written .ese files are read as they are written | Grammars, Peg, EseParse | lines of a file as data with a printer, layouts as a relation between lines and text; forward reasoning on the grammar, rule by rule, for all texts so written | proved |
| C79 | Written ICAO tables and navdata airports are read as they are written | Grammars, Peg, Icao | as C78, with the cells of the tables | proved |
| C80 | Written symbology files are read as they are written | Grammars, Peg, SymbologyParse, SymbolParse | as C78; the parts of a rule are matched number by number, and the longer rule with the same word fails at the end of the line | proved |
| C81 | Written .asr files are read as they are written | Grammars, Peg, Asr | matches are built from the lines: each keyword differs from the others, so one alternative matches; the pairs then are those of the lines and C39 and C47 say what they are read as | proved |
| C82 | Written TopSky map files are read as they are written | Grammars, Peg, TopskyParse | as C78, for a grammar whose skipped text may be any remark: matches are built field by field, each keyword differs from the others, and lines that follow each other are merged by C07's function | proved |
| C83 | Written TopSky symbol files are read as they are written | Grammars, Peg, TopskyParse, SymbolParse | matches are built from C80's for the rules and C82's for the lines; no rule starts like the next symbol | proved |
| C84 | Written TopSky settings files are read as they are written | Grammars, Peg, TopskyParse | matches are built rule by rule; where the grammar asks for the start of the text or a line end, by whether anything has been read | proved |
| C85 | Written airway.txt files are read as they are written | Grammars, Peg, AirwayTxt, Airways | matches are built rule by rule; a written neighbour is never taken for a missing one because its latitude contains a point; the rest is C11 and C12 | proved |
| C86 | The airways of a loaded profile are those written in its airway.txt | Adaptation, AirwayTxt, Airways | C85 gives the graph of the written lines, C67 says that it is the one loaded, C12 to C14 say what it answers | proved |
| C87 | A loaded profile has what is written in its files | Adaptation, TopskyParse, Icao, EseParse | the text theorems C78, C79, C82, C83 and C84 composed with C67 | proved |
| C88 | A profile whose files are written as they should be loads | Adaptation and all parsers | the text theorems C78-C80, C82-C85 give the files read; then C60 | proved |
| C89 | Settings, symbols and line styles of a loaded profile are those written | Adaptation, Settings, Colours, TopskyParse, SymbologyParse | the text theorems C80, C82-C84 composed with C67, C34-C36, C49 | proved |
| C90 | Sectors, coordination points and maps of a loaded profile are those written | Adaptation, Sectors, SectorIndex, Constraints, Maps | the text theorems C78 and C82 composed with C67, C16-C18, C27, C28 and C63 | proved |

Notes (also in MANIFEST.json):

* C36: holds for all fields except high_airway_name, for which it is refuted
* C42: refuted for paths with two leading separators, which are absolute
* C46: every point is kept with a squawk range; without one the first point is lost, which refutes the claim for such lines
* C47: proved for isec.txt, .prf, ICAO and navdata files and TopSky settings; for .sct, .ese, .asr, airway.txt, symbology and TopSky maps and symbols the exact condition is proved and the claim is refuted by numbers out of range or coordinates in mixed notation
* C48: `{}` of the four numbers of the general information is a function argument with the hypothesis that its text is read as the number; coordinates are finite and below 256 degrees; names must not be taken for a line (good_drawing); the two unreadable kinds are refuted
* C51: finite coordinates of at most 1000 degrees; an empty map is refuted
* C52: missing settings panic: refuted that a parsed profile has all its paths
* C53: refuted when two settings name the plugin in different directories
* C54: refuted for the unknown wake turbulence category, which is written as ?
* C58: refuted for comma-separated names after AUP and NOTAM and for overrides below a map
* C59: refuted for settings in sections, which are not read
* C60: the file system, hash orders, Unicode upper case, geodesic destination and JSON are function arguments; the working directory is assumed to exist
* C61: refuted for TopSky files that panic
* C63: levels below 2^24 feet (see C18); containment and orientation of polygons are arguments with the assumptions contains_ok and ccw_ok
* C64: refuted for the names of combined sectors; the positive part excludes profiles that name a plugin twice (see C53)
* C65: serde_json, jrsonnet and the string escaping are function arguments
* C66: toml and canonicalize are function arguments
* C68: the formatting and reading of numbers are function arguments with the hypothesis that finite numbers and integers are read as written (`faithful`); adaptations with infinite numbers, NaN or transparent colours are excluded (see C71); JSON values are modelled, not their text
* C69: the reading of written numbers is a function argument
* C70: the assumption on jsonnet is `jsonnet_adds`: the program for the overlays evaluates to the members of the adaptation replaced by those of the overlays, possibly sorted and with numbers written differently; an overlay volume needs the private member that is written as null
* C71: the positive part assumes that the components of the working directory and of the canonical path of the profile are names, and that vectors have fewer than 2^64 elements; refuted for numbers that are not finite
* C72: coordinates are below 999 degrees in magnitude; closeness does not imply equality (refuted)
* C73: the order of the hash map is an argument; the values of symbology items are written by a function argument; JSON values are modelled, not their text
* C74: the lines are written by the specification, with the Display forms of the code for types and neighbours
* C75: the text of JSON is outside of the model: the parser of documents is an argument
* C77: refuted for label sizes, COOPANS, the track and user-interface colours and the style SOLID; the colour of high airway names is excepted (see C36), and the VOR symbol (see C35)
* C88: the .sct file is any file that parse_sct reads (files written by the code itself are such files, C48); arguments and assumptions as in C60
* C89: for line styles: no two names of styles differ in case only (see C34)
* C90: for find_sector: levels below 2^24 feet (see C18), and containment and orientation of polygons are arguments, as in C63

## Findings

What the proofs showed the code does not do, each with a theorem:

* C02: a UTF-8 byte order mark is kept as the first character of the text; text with a
  UTF-16 byte order mark is decoded as UTF-16.
* C09: a general coordinate can be written with 60 seconds or 60 minutes; beyond 255
  degrees (dummy coordinates of the UK) it is written as 255.
* C18: levels of 2^24 feet and more are rounded before they are compared.
* C23: a designator with non-ASCII decimal digits panics.
* C24: only the first element of a name is considered by `contains_nav_element`.
* C25: runways of an airport known only from navdata are not attached.
* C27: constraints whose fields contain the separator can share a key.
* C29: a polygon is filed with the style in effect one rule later.
* C34: of custom line styles that differ only in case the hash order decides.
* C35: the default of the VOR symbol is the one of the NDB.
* C36: the colour of high airway names is that of the lines.
* C37: airways of .sct files are drawn without the end point of each segment.
* C41, C42: a setting with an empty value makes the whole profile an error; a path with
  two leading separators is absolute.
* C46: without a squawk range the first visibility point of a position is lost.
* C47: numbers outside of their integer type panic in .sct, .ese, .asr, airway.txt,
  symbology and TopSky files; decimal coordinates panic in .ese files and half decimal
  coordinates in TopSky maps.
* C48: a sector file without general information, or with a drawing that starts with a
  placeholder segment from a place to itself, is written as a text that cannot be read.
* C51: writing an empty isec map and reading it fails.
* C52: a profile that was read can panic when its paths are asked for.
* C53: with two settings naming the same plugin the path depends on the hash order.
* C54: the unknown wake turbulence category is written as `?` and read from `-`.
* C58: names after AUP and NOTAM are not separated at commas; an override below a map is
  dropped.
* C59: settings in sections are not read.
* C61: TopSky data that is an error is ignored when a profile is loaded, but a number out
  of range or a half decimal coordinate in it (C47) panics and loses everything else.
* C64: a sector combined from several definitions is named after the one that comes first
  in a hash map, so that `find_sector` can give another name on the next run.
* C69, C70: the marker field `private` of a volume is part of the document: an overlay that
  gives volumes without it is an error.
* C71: a font size of `inf` in the TopSky settings loads, but no overlay can be applied to
  the result; a zoom level beyond the range of floats is lost when overlays are applied.
* C72: two fixes of the same name that are closer than any bound can be different, because
  each is rounded to millionths of a degree on its own.
* C73: a two-key map whose first keys contain colons can be written as an object with a
  repeated name (maps that were read from files are not).
* C75: `SquawksJson` is read with PascalCase names but written with snake_case names: what
  was serialised is never read back.
* C76: the text of a coordination point does not tell a level to climb to from a level to
  descend to, nor a departure runway from an arrival runway.
* C77: `Adaptation::default()` is not what a profile that says nothing loads as: label sizes
  are 3 instead of 10.5 (the factor 3.5 is missing), COOPANS is off instead of on, all track
  and user-interface colours differ (the constants are never reached, because the built-in
  TopSky colours have all the names), and the style SOLID of its lines is not defined.
* C82_remark_refuted: a remark at the end of a line of a TopSky maps file becomes part of
  the value of most settings (`FOLDER:F // x` is the folder `F // x`), although `COMMENT`
  may follow everywhere; in the content of `TEXT` it is cut instead.
* C83_indent_refuted: the rules of a symbol in a TopSky symbols file cannot be indented, although
  the settings of a map can; with one indented line the whole file is refused (and, by C47_topsky_rejects, every
  TopSky file with it).
* C84_first_line_refuted, C84_first_blank_refuted: a TopSky settings file whose first line is empty
  or starts with a blank before the first setting is refused (`SOI | NL` takes the start of the text
  and then wants the setting there).
* C84_colour_refuted: `Color_A=red` makes the whole settings file unreadable, because the colour rule
  has matched without its value and cannot be taken back.
* C85_last_end_refuted: an airway.txt file whose last line does not end with a line end is refused as a
  whole: `airway` in airway.pest requires `NL` behind the second neighbour.
* Without theorem: serde_json reads floats exactly only with its feature `float_roundtrip`,
  which Cargo.toml does not ask for; C68 has the exact reading as a hypothesis.
* Without theorem: the text alignment of TopSky symbols and texts is parsed and dropped.

## What is modelled and what is not

Modelled, function by function (see the citations): src/lib.rs (decoding, degrees,
minutes and seconds), src/airway.rs, src/asr.rs, src/ese.rs, src/icao_*.rs,
src/isec.rs, src/navdata_airports.rs, src/prf.rs, src/sct.rs, src/squawks.rs (ranges),
src/symbology.rs, src/topsky/**, src/adaptation/{colours, constraints, icao,
line_styles, sct_items, sector_index, sectors, symbols}.rs, adaptation/locations/**,
adaptation/maps/**, adaptation/settings/**, adaptation/mod.rs and all of src/pest.

Not modelled: log messages and warnings; error messages (an error is the value `Err`);
the text of JSON (its values are modelled, with what the derives make of them, C68-C71),
TOML and the serialisation of types outside of the adaptation (except for C04, C54, C73 and C75),
the jsonnet interpreter and `canonicalize`, which are function arguments of the overlays
(C65, C70) and of adaptation.toml (C66); `bevy_reflect` derives; memory
exhaustion, stack depth and time; pest's optimizer (assumed to preserve meaning) and its
call limit (off by default).

Simplifications are stated in the comments of the definitions.  The main ones: the
exponent of a parsed float is not saturated; paths are modelled up to the equality of
`Path` on Unix; Unicode tables are those of version 14 (no theorem depends on them).

## Trusted base

* The kernel of Coq 8.16.1, including `vm_compute`, which evaluates the witnesses and
  the checks of the grammars.
* The transcription of the Rust code and of the grammars (by hand, with citations), and
  the modelling decisions above: the semantics of pest, of `encoding_rs`, of the
  standard library's number parsing and formatting, of `std::path`.
* The axioms `Print Assumptions` lists, all from the standard library:
* 282 theorems: `Closed under the global context` (no axiom at all). These are all theorems of MANIFEST.json except the ones below.
* `ClassicalDedekindReals.sig_forall_dec`, `FunctionalExtensionality.functional_extensionality_dep`: `C18_huge_levels_refuted`, `C48_placeholder_refuted`, `C72_close_refuted`.
* `ClassicalDedekindReals.sig_forall_dec`, `ClassicalDedekindReals.sig_not_dec`, `Classical_Prop.classic`, `FunctionalExtensionality.functional_extensionality_dep`: `C09_read_write`, `C09_write_close`, `C10_sign`, `C10_value`, `C18_find_sector`, `C18_order_irrelevant`, `C48_round_trip`, `C51_round_trip`, `C63_find_sector`, `C63_volumes_at`, `C65_index_is_new`, `C68_index`, `C72_nearest`, `C72_equal`, `C72_same`, `C72_six_decimals`, `C72_borders`, `C74_read_back`, `C74_same_point`, `C90_find_sector`.

No axiom, parameter or section-less variable is declared, no kernel check is switched
off, and there are no functors or module types.

## Wrong programs

`seeded/LOG.jsonl` records edits of the model as a bug would make them.  For each:
`failed` lists the places where the build broke, `theorems_failed` the theorems of the
named properties that could no longer be built, `tightened` the theorems that had
to be strengthened because the edit first survived.
