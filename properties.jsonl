{"id": "C01", "title": "Parsing always finishes", "statement": "For every file format and every content, the parse call comes back: the grammar never enters a repetition that succeeds without consuming input, never calls an undefined rule and never recurses without bound.", "quantifier": "all texts, for each of the grammars (.sct, .ese, .asr, .prf, airway.txt, isec.txt, ICAO files, symbology, TopSky files)", "why_tests_cant": "non-termination shows up only on particular inputs; no finite sample rules it out", "anchors": ["src/pest/*.pest", "src/sct.rs Sct::parse", "src/ese.rs Ese::parse"]}
{"id": "C02", "title": "Decoding of file bytes is total and exact", "statement": "Reading file bytes as text never fails; valid UTF-8 is decoded to exactly the encoded characters, any other BOM-less content is decoded byte by byte as windows-1252, one character per byte, and pure ASCII is unchanged in both cases.", "quantifier": "all byte sequences", "why_tests_cant": "the input space is all byte strings; the fallback path depends on global validity of the whole file", "anchors": ["src/lib.rs read_to_string"]}
{"id": "C03", "title": "EuroScope colour numbers round-trip", "statement": "Converting a colour number 0..2^24-1 to a colour and back gives the same number; converting an opaque colour to its number and back gives the same colour; every i32 outside that range is rejected, and no value wraps or panics.", "quantifier": "all 2^32 i32 numbers and all colours", "why_tests_cant": "2^32 inputs, truncating division of negative numbers", "anchors": ["src/adaptation/colours.rs Colour::from_euroscope, Colour::to_euroscope"]}
{"id": "C04", "title": "Colour (de)serialisation round-trips", "statement": "Serialising a colour and deserialising the string gives back the same red, green and blue with alpha 255; a string is accepted exactly when it is '#' followed by six hex digits (either case), and each pair is decoded as that channel's value.", "quantifier": "all colours, all strings", "why_tests_cant": "all strings must be classified", "anchors": ["src/adaptation/colours.rs ColourVisitor::visit_str, Serialize for Colour"]}
{"id": "C05", "title": "Colour lookup precedence", "statement": "Looking up a colour by name in the adaptation returns the TopSky definition if there is one, else the .sct definition, else the built-in TopSky default of the variant selected by the COOPANS setting, else nothing; track and UI colours use TopSky, then default table, then a fixed constant.", "quantifier": "all names, all sets of definitions, both variants", "why_tests_cant": "maps are unbounded and the result depends on the presence/absence in three layers", "anchors": ["src/adaptation/colours.rs Colours::get, Colours::from_euroscope, TrackColours::from_euroscope, UIColours::from_euroscope"]}
{"id": "C06", "title": "Merging .sct lines never changes what is drawn", "statement": "The line groups built for a GEO/SID/STAR/ARTCC entry draw exactly the non-degenerate segments of the file, in file order, each with its own colour; consecutive segments are joined only when colour and end point agree, and no line is ever empty.", "quantifier": "all sequences of (start, end, colour) entries", "why_tests_cant": "the merge is stateful; the invariant must hold for every history of segments", "anchors": ["src/sct.rs parse_line_groups"]}
{"id": "C07", "title": "Merging TopSky LINE rules never changes what is drawn", "statement": "The lines built from consecutive LINE rules of a TopSky map draw exactly the non-degenerate segments of the file in file order and contain no empty line.", "quantifier": "all sequences of segments", "why_tests_cant": "stateful merge over unbounded histories", "anchors": ["src/topsky/map/mod.rs MapLine::parse"]}
{"id": "C08", "title": ".sct sections: last one of each kind wins, colours accumulate", "statement": "After parsing, every list field of the result comes from the last section of that kind in the file (in file order), and earlier sections of the same kind leave no trace except their colour definitions, which accumulate over the whole file with the last definition of a name winning and out-of-range numbers ignored.", "quantifier": "all parsed .sct files, any number and order of sections", "why_tests_cant": "any number and order of sections", "anchors": ["src/sct.rs Sct::parse, parse_independent_section, store_colour"]}
{"id": "C09", "title": "Coordinates written in the .sct style read back to the same text", "statement": "For degrees 0..180, minutes 0..59 and seconds given to the millisecond, the coordinate obtained by parsing hemisphere/degrees/minutes/seconds is written back as exactly the same text, in IEEE double arithmetic.", "quantifier": "all hemispheres, degrees, minutes and millisecond seconds (more than 10^8 values)", "why_tests_cant": "floating-point rounding must be bounded for every value", "anchors": ["src/lib.rs DegMinSecExt, decimal_to_dms"]}
{"id": "C10", "title": "Sign of parsed coordinates", "statement": "A coordinate with hemisphere N or E is never negative and S or W never positive, zero degrees included, whatever the degrees, minutes and seconds are; latitude goes to y and longitude to x.", "quantifier": "all hemispheres, degrees, minutes, non-negative seconds", "why_tests_cant": "all values, including zero degrees", "anchors": ["src/lib.rs Coord::from_deg_min_sec, Sign"]}
{"id": "C11", "title": "airway.txt: the graph stays well formed", "statement": "After any sequence of segment insertions: all internal ids are in range, name lookups and id tables agree, no two points share both name and (quantised) position, no fix has two edges to the same neighbour on one airway, and edges are symmetric.", "quantifier": "all sequences of inserted segments", "why_tests_cant": "invariant over unbounded histories", "anchors": ["src/adaptation/locations/airways.rs AirwayGraph::insert_or_update_segment"]}
{"id": "C12", "title": "airway.txt: merged edge attributes", "statement": "For each airway and ordered pair of points, the stored edge is usable in that direction iff some inserted segment in that direction was, and its minimum level is the least minimum level of all segments inserted between the two points (in either direction), absent iff none had one; insertions for other airways or points never change it.", "quantifier": "all sequences of inserted segments", "why_tests_cant": "depends on whole insertion history", "anchors": ["src/adaptation/locations/airways.rs AirwayGraph::insert_or_update_edge"]}
{"id": "C13", "title": "Airway expansion returns a real path", "statement": "If expanding an airway between two points succeeds, the result is non-empty, ends at a point with the requested end name, every step follows an edge of that airway in the graph starting at the start point, reports the direction flag and minimum level of that edge, never immediately turns back, and has at most as many steps as there are points; no lookup can panic.", "quantifier": "all graphs reachable by insertions, all start/end/airway names", "why_tests_cant": "all graphs including rings, branches, duplicates", "anchors": ["src/adaptation/locations/airways.rs expand_airway_segment, traverse_airway"]}
{"id": "C14", "title": "Airway expansion is complete on linear airways", "statement": "If an airway is a simple chain of points, expanding between any two distinct points on it succeeds and returns exactly the points strictly after the start up to and including the end, in chain order (forward or backward).", "quantifier": "all chains of any length, all pairs of positions", "why_tests_cant": "unbounded chain length", "anchors": ["src/adaptation/locations/airways.rs expand_airway_segment, traverse_airway"]}
{"id": "C15", "title": "Sector polygon uses every border segment exactly once", "statement": "When a sector's border lines give a polygon, the ring is closed and its consecutive points are exactly the border segments (after rounding to 1e-6 degrees), each used exactly once, in some orientation.", "quantifier": "all borders (any multiset of segments), any hash iteration order", "why_tests_cant": "all multigraphs; nondeterministic start point", "anchors": ["src/adaptation/sectors.rs polygon_from_ese"]}
{"id": "C16", "title": "Sector polygon exists exactly for closed connected borders", "statement": "A polygon is produced iff the border is non-empty, every point has even degree and all segments are connected; the answer does not depend on hash iteration order, and the computation always terminates.", "quantifier": "all borders, any hash iteration order", "why_tests_cant": "all multigraphs; nondeterministic start point", "anchors": ["src/adaptation/sectors.rs polygon_from_ese"]}
{"id": "C17", "title": "Volumes are partitioned into sectors", "statement": "Every .ese sector with a valid polygon becomes exactly one volume with its levels, every volume belongs to exactly one sector, two volumes share a sector iff they have the same owner priority and runway filter, no sector overwrites another, and the departure/arrival aerodromes of a sector are the union over its volumes.", "quantifier": "all .ese sector maps, any hash iteration order", "why_tests_cant": "unbounded maps, nondeterministic order", "anchors": ["src/adaptation/sectors.rs Sectors::from_ese, find_id_by_volume"]}
{"id": "C18", "title": "find_sector finds the right sector", "statement": "find_sector returns the alphabetically least id of the sectors with a non-empty position priority that have a volume containing the point laterally and the level in [lower, upper), and nothing iff there is none; the bounding-box index never changes the answer, and the answer does not depend on hash order.", "quantifier": "all sector/volume maps, all points and levels", "why_tests_cant": "all configurations; index must never miss a candidate", "anchors": ["src/adaptation/sector_index.rs find_sector, volumes_at, build_tree"]}
{"id": "C19", "title": "Index freshness", "statement": "For every sequence of queries, mutations of sectors/volumes, clones and explicit rebuilds: a query is answered from the data as of the last rebuild or, if there was none, as of the first query; right after a rebuild it is answered from current data.", "quantifier": "all operation histories", "why_tests_cant": "history property", "anchors": ["src/adaptation/sector_index.rs SectorVolumeIndex", "src/adaptation/mod.rs rebuild_sector_index"]}
{"id": "C20", "title": "volumes_near_line misses nothing", "statement": "Every indexed volume whose bounding box meets the bounding box of the line is returned, and nothing else.", "quantifier": "all volumes, all lines", "why_tests_cant": "all geometries", "anchors": ["src/adaptation/sector_index.rs volumes_near_line"]}
{"id": "C21", "title": "Designator lookup precedence", "statement": "convert_designator resolves to the first VOR of that name, else first NDB, else first fix, else airport, else runway threshold, else coordinate waypoint, else range/bearing; contains_designator is true iff one of the first five applies.", "quantifier": "all location databases, all designators", "why_tests_cant": "all databases", "anchors": ["src/adaptation/locations/mod.rs convert_designator, convert_fix, contains_designator"]}
{"id": "C22", "title": "Coordinate waypoints: accepted language and value", "statement": "For every ASCII designator, the coordinate-waypoint conversion never panics, accepts exactly the abbreviations D/DD/DDMM/DMM/... with matching precision, returns the normalised designator (fixed width), and converting the normalised designator again gives the identical result.", "quantifier": "all ASCII designators", "why_tests_cant": "all strings", "anchors": ["src/adaptation/locations/mod.rs convert_coordinate"]}
{"id": "C23", "title": "Designator conversion and non-ASCII digits", "statement": "Designator lookup should never panic; it does for designators containing non-ASCII decimal digits, because the patterns accept any Unicode digit and the number parser does not.", "quantifier": "all designators", "why_tests_cant": "rare inputs outside any sample", "anchors": ["src/adaptation/locations/mod.rs coord_regex, range_bearing_regex, convert_coordinate, convert_range_bearing"]}
{"id": "C24", "title": "contains_nav_element with duplicate names", "statement": "contains_nav_element is true iff the FIRST VOR, NDB or fix of that name lies (within 1e-6 degrees rounding) at the position; further elements of the same name are not considered.", "quantifier": "all databases with duplicates", "why_tests_cant": "needs duplicates at particular positions", "anchors": ["src/adaptation/locations/mod.rs contains_nav_element"]}
{"id": "C25", "title": "Airport merging", "statement": "The airport table contains exactly the airports of the .sct file and of the navdata file; coordinates come from .sct when present; names come from navdata, else from ICAO data; countries only from ICAO data; runways of an .sct airport are exactly the .sct runways of that airport in file order (an airport known from navdata only gets none, even when the .sct file lists runways for it); independent of hash iteration order.", "quantifier": "all airport lists and maps, any hash iteration order", "why_tests_cant": "unbounded maps, nondeterministic order", "anchors": ["src/adaptation/locations/mod.rs Locations::from_euroscope, Airport::from_sct_airports"]}
{"id": "C26", "title": "SIDs/STARs keep order and drop only unknown waypoints", "statement": "Every SID/STAR of the .ese file is stored under its airport and name, in file order, with exactly the resolvable waypoints in order.", "quantifier": "all .ese files and databases", "why_tests_cant": "unbounded lists", "anchors": ["src/adaptation/locations/mod.rs Locations::from_euroscope"]}
{"id": "C27", "title": "Constraint keys and partition", "statement": "A constraint without levels is dropped, one with a climb level becomes a departure constraint, any other a destination constraint; two constraints share a key iff their seven fields agree after writing '*' for absent ones and joining by '#', and the last one of a shared key wins.", "quantifier": "all constraint lists", "why_tests_cant": "key collisions need particular field contents", "anchors": ["src/adaptation/constraints.rs extract_constraints", "src/ese.rs Constraint::key"]}
{"id": "C28", "title": "No TopSky map is lost or overwritten", "statement": "Every TopSky map with a resolvable colour ends up in its folder under a name that is its own or its own plus a numeric suffix; all names in a folder are distinct and each entry is stored under its own name; the number of stored maps equals the number of such map definitions.", "quantifier": "all sequences of maps and rules", "why_tests_cant": "name collisions over unbounded histories", "anchors": ["src/adaptation/maps/mod.rs from_topsky"]}
{"id": "C29", "title": "Map elements keep the style that was in effect", "statement": "Each line, symbol and label of a map ends up in a group whose colour, layer, zoom, font size, line style and ASR filter are those in effect at that rule; for polygons this fails when the style changes directly afterwards.", "quantifier": "all rule sequences", "why_tests_cant": "stateful over unbounded rule sequences", "anchors": ["src/adaptation/maps/mod.rs Map::config_change, from_topsky"]}
{"id": "C30", "title": "Activation conditions form the intended disjunction of conjunctions", "statement": "The activation list of a map has one alternative per ACTIVE rule, containing it and the AND_ACTIVE rules following it, in order; AND_ACTIVE before any ACTIVE is ignored.", "quantifier": "all rule sequences", "why_tests_cant": "unbounded rule sequences", "anchors": ["src/adaptation/maps/mod.rs from_topsky"]}
{"id": "C31", "title": "COORD buffers", "statement": "Every COORDLINE/COORDPOLY uses exactly the COORD rules since the previous COORDLINE/COORDPOLY, in order, dropping only unresolvable ones; coordinates are never used twice.", "quantifier": "all rule sequences", "why_tests_cant": "unbounded rule sequences", "anchors": ["src/adaptation/maps/mod.rs from_topsky"]}
{"id": "C32", "title": "Coordination timing resolution", "statement": "Each resolved ABI/ACT/REV time is the constraint's override if set, else the partner FIR's override if set, else the global value, independently per field.", "quantifier": "all settings, FIRs and overrides", "why_tests_cant": "all combinations over unbounded override maps", "anchors": ["src/adaptation/settings/mod.rs CoordinationSettings::resolve"]}
{"id": "C33", "title": "Special use codes", "statement": "The special-use code table contains exactly the codes given singly or inside a valid octal range, each as (at least) four octal digits, with the message of the last entry that covers it; entries with both or neither of code and range and unparsable ones contribute nothing.", "quantifier": "all squawk lists", "why_tests_cant": "ranges of up to 65536 codes, overlapping entries", "anchors": ["src/adaptation/settings/mod.rs SsrSettings::from_squawks_json"]}
{"id": "C34", "title": "Built-in line styles cannot be overridden", "statement": "After conversion the six built-in line styles have their fixed dash patterns whatever the TopSky file defines; every other custom style has its dash list taken pairwise.", "quantifier": "all TopSky line style tables", "why_tests_cant": "all tables and names", "anchors": ["src/adaptation/line_styles.rs line_styles_from_topsky"]}
{"id": "C35", "title": "Symbol fallback", "statement": "Each symbol is the TopSky symbol of its name, else the symbology symbol of its type, else the built-in default of that symbol (the VOR default is wrongly the NDB one).", "quantifier": "all symbol tables", "why_tests_cant": "all tables", "anchors": ["src/adaptation/symbols.rs Symbols::from_euroscope"]}
{"id": "C36", "title": "Map colours come from their own symbology entry", "statement": "Each map colour is the colour of its own symbology item, else its default (the high-airway name colour is wrongly taken from the high-airway line item).", "quantifier": "all symbology tables", "why_tests_cant": "all tables", "anchors": ["src/adaptation/colours.rs MapColours::from_euroscope"]}
{"id": "C37", "title": ".sct airway drawing", "statement": "The line strings produced for an .sct airway should connect the start and end of each of its segments; in fact the end point of every segment is ignored.", "quantifier": "all airways", "why_tests_cant": "all inputs", "anchors": ["src/adaptation/sct_items.rs airway_to_multi_line_string, build_linestring"]}
{"id": "C38", "title": ".sct coloured lines conversion", "statement": "Converting a coloured line group keeps the resolvable points of each line in order with consecutive duplicates removed, drops lines without resolvable points and groups without lines, and picks the named colour, falling back to the SID colour.", "quantifier": "all groups and databases", "why_tests_cant": "all inputs", "anchors": ["src/adaptation/sct_items.rs ColouredLines::from_location_coloured_lines"]}
{"id": "C39", "title": ".asr scalar settings: first occurrence wins, else default", "statement": "Each scalar of a parsed .asr file is that of the first occurrence in the file, or the documented default; 0 for ABOVE/BELOW means no filter; a positive LEADER is miles and a non-positive one minutes; every drawn item is kept in its list in file order.", "quantifier": "all setting sequences", "why_tests_cant": "unbounded sequences", "anchors": ["src/asr.rs Asr::parse, parse_setting, AsrMap::from"]}
{"id": "C40", "title": "ICAO files: first definition wins", "statement": "In the aircraft, airline, airport and navdata airport tables each designator maps to its first definition in the file, and every defined designator is present.", "quantifier": "all files", "why_tests_cant": "unbounded files with duplicates", "anchors": ["src/icao_aircraft.rs", "src/icao_airlines.rs", "src/icao_airports.rs", "src/navdata_airports.rs"]}
{"id": "C41", "title": ".prf settings: last definition wins", "statement": "Each (category, key) of a .prf file maps to the value of its last occurrence.", "quantifier": "all files", "why_tests_cant": "unbounded files with duplicates", "anchors": ["src/prf.rs Prf::parse"]}
{"id": "C42", "title": ".prf paths", "statement": "A settings path is resolved with trailing whitespace removed and backslashes turned into slashes, relative to the .prf directory iff it starts with a separator and relative to the working directory otherwise.", "quantifier": "all paths", "why_tests_cant": "all strings", "anchors": ["src/prf.rs join_settings_path"]}
{"id": "C43", "title": "isec.txt listing", "statement": "parse_isec_txt keeps every waypoint of the file under its designator, in file order.", "quantifier": "all files", "why_tests_cant": "unbounded files", "anchors": ["src/isec.rs parse_isec_txt"]}
{"id": "C44", "title": "TopSky definitions precedence", "statement": "Colours defined in the maps file override those of the settings file and symbols of the maps file override those of the symbols file; otherwise the last definition of a name wins.", "quantifier": "all triples of files", "why_tests_cant": "unbounded definitions", "anchors": ["src/topsky/mod.rs Topsky::parse", "src/topsky/map/mod.rs parse_topsky_maps"]}
{"id": "C45", "title": "Sector borders of .ese files", "statement": "For every identifier the last sector with it in the last airspace section is read, with its levels, first owner list, airports and runways; its border consists of exactly the sector lines its first BORDER names, in that order, skipping unknown names (circle lines included).", "quantifier": "all sector/line definitions", "why_tests_cant": "unbounded definitions", "anchors": ["src/ese.rs combine_sectors_with_borders, collect_sectors"]}
{"id": "C46", "title": "Visibility points of .ese positions", "statement": "A position should have every visibility point of its line; when the squawk range is missing the first one is lost.", "quantifier": "all position lines", "why_tests_cant": "depends on optional fields", "anchors": ["src/ese.rs parse_position"]}
{"id": "C47", "title": "Parsers never panic", "statement": "Parsing any file content returns a value or an error and never panics: holds for isec.txt, .prf, ICAO airline, airport and aircraft and navdata airport files; fails for .sct, .ese, .asr, airway.txt, symbology and TopSky files exactly on numbers outside their integer type, and for .ese and TopSky files on coordinates in an unexpected notation.", "quantifier": "all texts per format", "why_tests_cant": "rare inputs outside any sample", "anchors": ["src/*.rs parse functions", "src/pest/*.pest"]}
{"id": "C48", "title": "Written .sct files are read back", "statement": "Writing a sector file and reading the text back gives the same items in every section: the same general information, colours, designators, names, frequencies, headings and segments of drawings with their colours, coordinates within 0.000502 seconds; only the order of items within a section may change, and items of the same name keep theirs. Two kinds of sector files that can be read are written as texts that cannot: those without general information, and those with a drawing that starts with a segment from a place to itself.", "quantifier": "all sector files whose texts are spelt as the grammar demands, with finite coordinates below 256 degrees", "why_tests_cant": "unbounded lists, texts and floats, and the greedy and ordered choices of the grammar at every item and section boundary", "anchors": ["src/sct.rs Display impls of Sct and its parts, Sct::parse", "src/pest/sct.pest"]}
{"id": "C49", "title": "Line and label settings come from their own symbology item", "statement": "Each line width and style and each label alignment and font size is that of its own symbology item (font size times 3.5), else width 1 SOLID resp. centred at 10.5.", "quantifier": "all symbology tables", "why_tests_cant": "all tables", "anchors": ["src/adaptation/settings/mod.rs LineSettings::from_euroscope, LabelSettings::from_euroscope"]}
{"id": "C50", "title": "Settings derived from TopSky and the profile", "statement": "Map font size, history dots, prediction vector and COOPANS switch are the parsed TopSky value, else their default (zero disables dots and vectors, a missing TopSky file too); the ASR files are the existing recent files 1 to 9 in order.", "quantifier": "all settings tables", "why_tests_cant": "all tables and value texts", "anchors": ["src/adaptation/settings/track.rs", "src/adaptation/settings/mod.rs MapsSettings, Settings::from_euroscope", "src/topsky/settings.rs parse_with_default"]}
{"id": "C51", "title": "isec.txt round trip", "statement": "Writing the waypoints of an isec.txt map and reading the text back gives every designator its fixes in order, within 0.501 millionths of a degree; the text does not depend on the hash map's order, and writing what was read gives the same text. An empty map is written as a text that is not read.", "quantifier": "all non-empty maps with finite coordinates up to 1000 degrees, all iteration orders", "why_tests_cant": "all maps, floats and hash orders", "anchors": ["src/isec.rs IsecMap Display, parse_isec_txt"]}
{"id": "C52", "title": "Paths of a profile exist exactly for the settings it has", "statement": "A method of a parsed profile that returns a path returns it iff the profile has the setting behind it, and panics otherwise; so a profile that was read without error can still panic when its paths are asked for.", "quantifier": "all profiles, all nine path methods", "why_tests_cant": "all profiles", "anchors": ["src/prf.rs Prf::sct_path, ese_path, airways_path, isec_path, navdata_airports_path, airlines_path, aircraft_path, airports_path, symbology_path"]}
{"id": "C53", "title": "Plugin directories do not depend on the hash order", "statement": "The squawks.json and TopSky directory paths of a profile are those of the setting naming Squawks.dll and TopSky.dll; if several settings name the file in different directories, the result depends on the iteration order of the hash map.", "quantifier": "all profiles and iteration orders", "why_tests_cant": "hash order is not under a test's control", "anchors": ["src/prf.rs Prf::squawks_path, topsky_path"]}
{"id": "C54", "title": "Wake turbulence, type and engine letters", "statement": "Each letter of an aircraft description is read as its ICAO category and no other text is read; a known wake turbulence category is written as the letter it is read from (the unknown category is not: it is written as ? and read from a minus sign).", "quantifier": "all texts and categories", "why_tests_cant": "all texts", "anchors": ["src/adaptation/icao.rs Wtc, AircraftType, EngineType from_str, Wtc Display"]}
{"id": "C55", "title": "airway.txt: the graph is built from exactly the segments of the file", "statement": "Reading an airway.txt file gives the graph made by inserting, line by line and in order, one segment for each of the up to two neighbours of a line, with the names, coordinates (latitude first), airway type, minimum level and direction written there; texts that do not have the format are errors.", "quantifier": "all airway.txt files", "why_tests_cant": "unbounded number of lines", "anchors": ["src/airway.rs parse_airway_txt, AirwayFix::parse, AirwayType::parse", "src/pest/airway.pest"]}
{"id": "C56", "title": ".ese files: coordination points and procedures in order", "statement": "The coordination points (COPX and FIR_COPX) of the last airspace section and the SIDs and STARs of the last procedure section of an .ese file are read each once and in order, with the fields written there; a wildcard is no value.", "quantifier": "all .ese files", "why_tests_cant": "unbounded number of lines", "anchors": ["src/ese.rs Constraint::parse, parse_sid_star, Ese::parse", "src/pest/ese.pest"]}
{"id": "C57", "title": "Symbology files: the last definition counts", "statement": "Reading a symbology file gives, for every folder and name, the last item with them whose colour number is a colour, with the colour, size, line style, weight and alignment written there, and for every symbol type the drawing rules, in order, of the last symbol with its number; items with invalid colours and symbols with unknown numbers are left out without affecting the others; angles are reduced by full turns.", "quantifier": "all symbology files", "why_tests_cant": "unbounded number of definitions", "anchors": ["src/symbology.rs Symbology::parse, Item::parse, parse_symbol_rules, parse_linestyle, parse_alignment", "src/pest/symbology.pest", "src/pest/symbol_rule.pest"]}
{"id": "C58", "title": "Maps of TopSky files", "statement": "The maps and overrides of a TopSky maps file are read in order, each map with its name and all its rules in order (folders, colours, activation conditions, symbols, lines, texts, coordinates, zooms, font sizes, styles) and each line style with its dashes, the last definition of a style counting. Refuted for lists of area names after AUP and NOTAM, which are kept as one name, and for overrides below a map, which are dropped.", "quantifier": "all maps files", "why_tests_cant": "unbounded maps, rules and names", "anchors": ["src/topsky/map/mod.rs parse_topsky_maps, parse_map, parse_map_rule", "src/topsky/map/active.rs parse_active", "src/pest/topsky.pest"]}
{"id": "C59", "title": "Settings of TopSky files", "statement": "For every setting name the last value given to it before the sections of the settings file is read; values in sections are not read.", "quantifier": "all settings files", "why_tests_cant": "unbounded settings", "anchors": ["src/topsky/settings.rs parse_topsky_settings", "src/pest/topsky_settings.pest"]}
{"id": "C60", "title": "A profile loads if its eight files can be read", "statement": "Loading an adaptation from a profile succeeds only if the .sct, .ese, airway, symbology, airport, airport coordinate, aircraft and airline files exist and have their format; it is an error only if one of them does not; and if all eight can be read it succeeds, unless the TopSky files panic or a waypoint designator has non-ASCII digits.", "quantifier": "all profiles, file systems and iteration orders", "why_tests_cant": "unbounded combinations of missing and malformed files", "anchors": ["src/adaptation/mod.rs Adaptation::from_prf"]}
{"id": "C61", "title": "TopSky and squawks are optional", "statement": "Without TopSky files, or with TopSky files that are errors, a profile loads without TopSky maps and named symbols, with the symbols of the symbology file or their defaults, the built-in line styles only, the colours of the .sct file or their defaults, and the default settings; without squawks.json there are no special use codes, and otherwise those of the file. Refuted for TopSky files that panic: they take the whole load with them.", "quantifier": "all profiles and file systems", "why_tests_cant": "all combinations of plugin files", "anchors": ["src/adaptation/mod.rs Adaptation::from_prf", "src/topsky/mod.rs Topsky::parse", "src/adaptation/settings/mod.rs Settings::from_euroscope"]}
{"id": "C62", "title": "Only the files of the profile matter, each for its own parts", "statement": "The result of loading depends on no other files than those the profile names, and a change of one of them leaves alone the parts of the adaptation that are made from others: for example sectors, positions and constraints depend on the .ese file only, airways on the airway file only, line styles on TopSky only.", "quantifier": "all pairs of file systems", "why_tests_cant": "quantifies over pairs of file systems", "anchors": ["src/adaptation/mod.rs Adaptation::from_prf"]}
{"id": "C63", "title": "find_sector and volumes_at answer from the .ese file", "statement": "In a loaded adaptation find_sector gives the alphabetically lowest of the sectors that have a definition in the .ese file with owners, a border that closes around the point and the level between its limits, and nothing iff there is no such definition; volumes_at gives exactly the volumes of definitions with owners whose border closes around the point.", "quantifier": "all profiles, points and levels, all containment tests and index arrangements", "why_tests_cant": "all files, points and levels", "anchors": ["src/adaptation/mod.rs Adaptation::find_sector, volumes_at, from_prf", "src/adaptation/sector_index.rs", "src/adaptation/sectors.rs"]}
{"id": "C64", "title": "Loading the same files gives the same answers", "statement": "Two loads of the same files combine the sector definitions in the same way (those with the same owners and runways) and agree in name, positions, airports, airways, constraints, colours, settings, aircraft and airlines, whatever the iteration order of hash maps. Refuted for the answer of find_sector: a combined sector is named after the definition that comes first in a hash map, so that two loads can give the same place different sector names.", "quantifier": "all profiles and pairs of iteration orders", "why_tests_cant": "hash order is not under a test's control", "anchors": ["src/adaptation/mod.rs Adaptation::from_prf", "src/adaptation/sectors.rs sectors_from_ese"]}
{"id": "C65", "title": "Overlays", "statement": "Without overlays an adaptation is unchanged; with overlays it is what the Jsonnet program made of its JSON and the imports of all overlays in order evaluates to, an error iff serialisation, evaluation or deserialisation fails and never a panic; find_sector on the result answers from the sectors and volumes of the result.", "quantifier": "all adaptations, overlay lists, points and levels, for any JSON and Jsonnet library", "why_tests_cant": "all adaptations and overlays", "anchors": ["src/adaptation/mod.rs Adaptation::apply_jsonnet_overlays, from_prf_with_overlays, rebuild_sector_index"]}
{"id": "C66", "title": "adaptation.toml", "statement": "The profile and overlay paths of an adaptation.toml are relative to the directory of that file, or absolute, and made canonical; loading it is loading that profile with those overlays in order; the working directory does not matter to the setup, nor to a profile whose paths all start with a separator.", "quantifier": "all toml files, paths and working directories", "why_tests_cant": "all directory layouts", "anchors": ["src/adaptation/mod.rs AdaptationSetup::parse, normalise_path, Adaptation::from_adaptation_toml"]}
{"id": "C67", "title": "The parts of a loaded adaptation come from their own files", "statement": "A loaded adaptation has the name, places, airways, positions, sectors, constraints, maps, symbols, colours, line styles, settings, aircraft, airlines and drawn items that its files say: each part is the one made from the data of its file, with airport names from the coordinate file, then the ICAO list, and colours from TopSky, then the .sct file, then the defaults.", "quantifier": "all profiles that load", "why_tests_cant": "all files", "anchors": ["src/adaptation/mod.rs Adaptation::from_prf, Position::from_ese_positions", "src/adaptation/locations/mod.rs Locations::from_euroscope"]}
{"id": "C68", "title": "An adaptation survives its JSON form", "statement": "The JSON form of an adaptation is the document with the documented members for every part, and reading it gives the adaptation back (without the index, which is rebuilt), for every adaptation with finite numbers and opaque colours; a document that differs only in the order of members and in the way numbers are written gives the same adaptation up to the order of hash maps; whatever is read is written and read again unchanged; find_sector on an adaptation read from any document answers from the sectors and volumes in it.", "quantifier": "all adaptations and all restatements of their JSON, for any number formatting that is read as written", "why_tests_cant": "the type has over a hundred fields with maps, options and enums nested in each other", "anchors": ["src/adaptation/mod.rs Adaptation (Serialize, Deserialize)", "src/adaptation/** derives of Serialize and Deserialize", "src/adaptation/colours.rs serialize, visit_str"]}
{"id": "C69", "title": "Exactly the documents of the schema are read", "statement": "A JSON document is read as an adaptation iff it conforms to the schema of the adaptation: every part is there once with the members of its type, integers in range, colours as #rrggbb, enumerations by their names, optional members absent or null; unknown members are ignored. Every adaptation so read has only finite numbers, integers in range, opaque colours and maps with one entry per key, so it can be written back.", "quantifier": "all JSON values", "why_tests_cant": "quantifies over all documents in both directions", "anchors": ["src/adaptation/mod.rs Adaptation (Deserialize)", "src/adaptation/** derives of Deserialize"]}
{"id": "C70", "title": "Overlays decide the parts that they name, and no others", "statement": "With overlays that are objects of plain members, the overlaid adaptation has the parts named by overlays as the last overlay that names them has them, and all other parts as before; it is an error only if such a part does not conform to its schema.", "quantifier": "all adaptations and overlay lists, for a Jsonnet library that adds objects", "why_tests_cant": "all adaptations and overlays", "anchors": ["src/adaptation/mod.rs Adaptation::apply_jsonnet_overlays", "src/adaptation/** derives of Serialize and Deserialize"]}
{"id": "C71", "title": "Every loaded adaptation survives its JSON form", "statement": "A profile that loads gives an adaptation that is written as JSON and read back as it is exactly if its floats are all numbers (neither NaN nor infinite): keys are unique, integers in range, colours opaque and paths plain whatever the files contain. Such a profile also loads with every list of overlays whose parts conform to the schema. Refuted without the condition: an infinite font size in the TopSky settings is written as null and makes every overlay an error; a zoom level beyond the range of floats is written as null and is lost.", "quantifier": "all profiles that load", "why_tests_cant": "all files", "anchors": ["src/adaptation/mod.rs Adaptation::apply_jsonnet_overlays", "src/adaptation/settings/mod.rs MapsSettings", "src/adaptation/maps/mod.rs MapGroup"]}
{"id": "C72", "title": "Places are the same up to a millionth of a degree", "statement": "Fixes are equal iff their names and their coordinates rounded to the nearest millionth of a degree are: equal fixes are at most 1.0000002 millionths apart, fixes within 0.4 millionths of the same six-decimal coordinates are equal, equality is an equivalence and equal fixes have equal hashes. The corners of sector volumes are the points of the border lines up to half a millionth. Refuted: arbitrarily close places need not be equal.", "quantifier": "all pairs of fixes with coordinates below 999 degrees, all hashers, all sector files", "why_tests_cant": "all coordinates, roundings and hashers", "anchors": ["src/adaptation/mod.rs Coordinate::quantize", "src/adaptation/locations/mod.rs Fix PartialEq, Hash", "src/adaptation/sectors.rs"]}
{"id": "C73", "title": "Maps with two keys are shown in JSON without collisions", "statement": "A profile that was read is serialised as an object with one member per setting, named category:key, no name twice, and the settings can be recovered from it; so are the plugin settings of .asr files and the items of symbology files. Refuted for two-key maps in general: first keys with colons make names collide.", "quantifier": "all texts that are read, all orders of the hash map", "why_tests_cant": "all files and hash orders", "anchors": ["src/lib.rs Serialize for TwoKeyMap", "src/prf.rs Prf", "src/asr.rs plugin_settings", "src/symbology.rs items"]}
{"id": "C74", "title": "The texts of airway points are read back", "statement": "A file of airway.txt lines whose airway types and neighbours are written by their Display forms is read, and gives the graph of its segments: names, airways, types, minimum levels and directions as written and coordinates as the nearest six-decimal numbers; points of six decimals are read as the same points.", "quantifier": "all non-empty lists of lines with names of upper case letters and digits, coordinates below 999 degrees and 32-bit levels", "why_tests_cant": "all lines, levels and coordinates", "anchors": ["src/adaptation/locations/airways.rs Display for AirwayFix, AirwayType", "src/airway.rs parse_airway_txt", "src/pest/airway.pest"]}
{"id": "C75", "title": "squawks.json", "statement": "Parsing squawks.json succeeds exactly for JSON documents that have the colour, message, list of codes and list of definitions by their PascalCase names (each exactly once, other members ignored, definitions with optional code and range), or the corresponding arrays, and gives exactly what the document says; all other contents are errors. (Reading back a serialised SquawksJson is refuted: it is written with other names and never read.)", "quantifier": "all contents and all JSON documents", "why_tests_cant": "all documents", "anchors": ["src/squawks.rs parse_squawks_json, SquawksJson, SquawkDef, Range", "src/adaptation/colours.rs Deserialize for Colour"]}
{"id": "C76", "title": "The text of a coordination point", "statement": "The Display form of a coordination point has the point and both sectors at fixed columns if they fit; two points with fitting names that do not end in spaces have the same text only if their point, sectors, flight levels in order and shown runway agree. (That it tells climb from descent levels is refuted.)", "quantifier": "all coordination points", "why_tests_cant": "all names, levels and runways", "anchors": ["src/ese.rs Display for Constraint"]}
{"id": "C77", "title": "What a profile leaves unsaid is as in the default adaptation", "statement": "In a loaded adaptation every map colour, sector colour, line style and label alignment whose item the symbology does not have, every symbol but the VOR's that neither symbology nor TopSky has, and, without TopSky, the map, track and coordination settings are those of Adaptation::default(). The default adaptation is written as JSON and read back as it is, and has no sector anywhere. Refuted: label sizes are 10.5 instead of the default 3, COOPANS is on instead of off, no track or user-interface colour that TopSky leaves undefined is the default one, and the default line settings name the style SOLID that the default adaptation does not have.", "quantifier": "all profiles that load, all items", "why_tests_cant": "all files", "anchors": ["src/adaptation/colours.rs Default for MapColours, SectorColours, TrackColours, UIColours", "src/adaptation/settings/mod.rs Default for LineSettings, LabelSettings, MapsSettings, CoordinationSettings, Settings", "src/adaptation/settings/track.rs Default for HistoryDotsSettings, VectorSettings", "src/adaptation/mod.rs Adaptation::default"]}
{"id": "C78", "title": "Written .ese files are read as they are written", "statement": "A file whose sections and lines are written in the documented form (positions, sector lines, sectors with their details, coordination points, SIDs and STARs, and sections that are not read, with any names, numbers and lists in them) is parsed without error, and has exactly the positions, sectors, coordination points and procedures of its lines: the last position or sector of a name, borders made of the last sector lines of their names, the first owner, border, departure and arrival list of each sector, all active runways. White space around lines and before remarks, empty lines, remarks and the kind of line ends make no difference.", "quantifier": "all non-empty lists of sections, all layouts of their lines", "why_tests_cant": "all names, numbers, lengths and layouts", "anchors": ["src/ese.rs Ese::parse, parse_position, parse_sectorline, parse_sector, parse_cop, parse_sid_star", "src/pest/ese.pest"]}
{"id": "C79", "title": "Written ICAO tables and navdata airports are read as they are written", "statement": "Files of airlines, airports, aircraft types and navdata airports whose lines are written in the documented form are parsed without error and have, for each designator, exactly the first line with it: names, countries, callsigns, positions and the category, type, number and kind of engines of the letters. Lines that continue the name of an aircraft type are not read. Spaces around lines, empty lines, remarks and the kind of line ends make no difference, except that the name of a navdata airport keeps the white space at the end of its line.", "quantifier": "all lists of lines, all layouts of them", "why_tests_cant": "all names, numbers, lengths and layouts", "anchors": ["src/icao_airlines.rs parse_airlines", "src/icao_airports.rs parse_airports", "src/icao_aircraft.rs parse_aircraft", "src/navdata_airports.rs parse_navdata_airports", "src/pest/icao_airlines.pest, icao_airports.pest, icao_aircraft.pest, navdata_airports.pest"]}
{"id": "C80", "title": "Written symbology files are read as they are written", "statement": "A symbology file whose lines are written in the documented form (a header, items, symbols with their rules, and the clip area) is parsed without error. Each folder and name has the colour, size, line style, line weight and alignment of the last line with it, unless its colour is not a number of red, green and blue. Each symbol type has the rules of the last entry with its number, in order: points, radii and angles less full turns, where ARC, FILLARC and ELLIPSE with one radius more draw ellipses unless the radii are equal. It makes no difference whether numbers are set apart with : or a space, nor what white space, empty lines and line ends there are.", "quantifier": "all lists of items and symbols, all layouts of them", "why_tests_cant": "all names, numbers, rules, lengths and layouts", "anchors": ["src/symbology.rs Symbology::parse, Item::parse, parse_symbol_rules", "src/pest/symbology.pest", "src/pest/symbol_rule.pest", "src/pest/base.pest"]}
{"id": "C81", "title": "Written .asr files are read as they are written", "statement": "A .asr file with one setting on each line, written in the form of its keyword, is read: each setting, drawn item and plugin value is that of the written lines with their fields as they are, where the first line of a setting and the last line of a plugin value count. Empty lines, lines with remarks after ; and the kind of line ends make no difference. If a number is out of the range of its setting, reading panics.", "quantifier": "all lists of setting lines of all 36 kinds, all layouts of them", "why_tests_cant": "all names, values, numbers, orders, lengths and layouts", "anchors": ["src/asr.rs Asr::parse", "src/pest/asr.pest"]}
{"id": "C82", "title": "Written TopSky map files are read as they are written", "statement": "A TopSky maps file of maps, symbols, colours, line styles, overrides and file paths, written line by line in the documented forms, is read: its maps are those written, in order, each with the written settings in order (folder, colours, conditions, layers, symbols, font sizes, zooms, styles, lines, texts, coordinates, flags), its overrides are those written, and of the symbols, of the colours and of the line styles with the same name the last one counts. Indentation of settings, empty lines, remarks on lines of their own and the kind of line ends make no difference. Remarks at the end of lines are not supported: in most settings they become part of the value.", "quantifier": "all lists of entries of six kinds and of settings of 18 kinds, all layouts of them", "why_tests_cant": "all names, numbers, coordinates, conditions, orders, lengths and layouts", "anchors": ["src/topsky/map/mod.rs parse_topsky_maps", "src/topsky/map/active.rs Active::parse", "src/pest/topsky.pest", "src/pest/base.pest"]}
{"id": "C83", "title": "Written TopSky symbol files are read as they are written", "statement": "A TopSky symbols file, in which each symbol has a line with its name and below it the rules to draw it, one per line, with colons or spaces between the numbers, is read: each symbol has the written rules in the written order, and of the symbols with the same name the last one counts. Empty lines, remarks on lines of their own, blanks at the end of lines and the kind of line ends make no difference. Unlike the settings of maps, the rules cannot be indented: such a file is refused.", "quantifier": "all lists of symbols with at least one rule each, all layouts of them", "why_tests_cant": "all names, numbers of rules, numbers in rules and layouts", "anchors": ["src/topsky/symbol.rs parse_topsky_symbols", "src/topsky/symbol.rs parse_symbol_rules", "src/pest/topsky.pest symbols", "src/pest/symbol_rule.pest"]}
{"id": "C84", "title": "Written TopSky settings files are read as they are written", "statement": "A TopSky settings file, with one setting on each line (Color_Name=red,green,blue or Name=value) and then sections in square or curly brackets, is read: for every name the colour is that of the last line outside of sections that gives a valid one, and the value is that of the last such line, without the remark that may follow it. Indentation, empty lines, remarks on lines of their own or at the end of lines, the kind of line ends and the sections make no difference. But the file is refused if it starts with an empty line or a blank, or if a setting whose name starts with Color_ has a value that is not three numbers.", "quantifier": "all lists of settings, all lists of sections of settings, all layouts of them, including no settings at all", "why_tests_cant": "all names, values, numbers, orders, lengths and layouts", "anchors": ["src/topsky/settings.rs parse_topsky_settings", "src/topsky/settings.rs parse_setting", "src/pest/topsky_settings.pest"]}
{"id": "C85", "title": "Written airway.txt files are read as they are written", "statement": "An airway.txt file of one or more lines, each with a fix, its latitude and longitude, the number 14, an airway, its kind (B, H, L or nothing) and two neighbours (name, latitude, longitude, minimum level or NESTB or nothing, Y or N; or five columns that are empty or 0, and N), separated by tabs, is read: the points with their coordinates and the airways of the result are those of the written segments, and a step from a point to another is stored for an airway exactly if a line joins them, in either direction, with the flag and the least level that are written for it. Empty lines, remarks, the kind of line ends, and the ways to write that there is no neighbour or no level make no difference. But the last line must end with a line end.", "quantifier": "all non-empty lists of lines of designators of capital letters and digits, decimal coordinates and levels that fit into 32 bits, and all layouts of them", "why_tests_cant": "all names, numbers, flags, orders, lengths and layouts", "anchors": ["src/airway.rs parse_airway_txt", "src/airway.rs AirwayFix::parse", "src/airway.rs AirwayType::parse", "src/adaptation/locations/airways.rs AirwayGraph::insert_segment", "src/pest/airway.pest"]}
{"id": "C86", "title": "The airways of a loaded profile are those written in its airway.txt", "statement": "If a profile loads and its airway.txt is written as in C85, with any layout, then the airways of the adaptation, and the steps between points with their flags and least levels, are those of the written lines. Expanding an airway between two fixes never panics; a result is a way along written segments from the start to the first point on the airway that has the name of the end; and if the lines write the airway as a chain, expanding it between two of its points gives exactly the points in between, in either direction.", "quantifier": "all profiles, file systems and other files with which the profile loads, all written airway.txt files, all fixes and airway names", "why_tests_cant": "all file contents, layouts, networks and queries", "anchors": ["src/adaptation/mod.rs Adaptation::from_prf", "src/airway.rs parse_airway_txt", "src/adaptation/locations/airways.rs AirwayGraph::expand_airway_segment"]}
{"id": "C87", "title": "A loaded profile has what is written in its files", "statement": "If a profile loads and its files of airlines and aircraft types, its .ese file and its TopSky settings and maps are written as in C78, C79, C82 and C84, with any layout, then the adaptation has for each designator the airline and the aircraft type of the first of its lines, for each position identifier the position of its last line, and for each colour name the colour of the last line of the maps file that defines it, else of the last one of the settings file, else that of the .sct file, else the built-in one; COOPANS is off exactly if the last setting of that name is 0.", "quantifier": "all profiles, file systems and other files with which the profile loads, all written files, all orders of hash maps, all names", "why_tests_cant": "all file contents, layouts and names", "anchors": ["src/adaptation/mod.rs Adaptation::from_prf", "src/adaptation/colours.rs Colours::get", "src/adaptation/mod.rs Position", "src/topsky/mod.rs Topsky::parse", "src/icao_airlines.rs", "src/icao_aircraft.rs"]}
{"id": "C88", "title": "A profile whose files are written as they should be loads", "statement": "If the .sct file of a profile is read, and its .ese, airway.txt, symbology, ICAO and navdata files and, if it uses the TopSky plugin, its TopSky files are written in the documented forms (C78, C79, C80, C82, C83, C84, C85), with any contents and layout, and the names of points in its routes, maps and .sct file have no digits but ASCII ones, then loading the profile succeeds: it is no error and does not panic.", "quantifier": "all profiles, file systems, written files and orders of hash maps", "why_tests_cant": "all file contents, sizes and layouts", "anchors": ["src/adaptation/mod.rs Adaptation::from_prf", "src/topsky/mod.rs Topsky::parse", "src/prf.rs"]}
{"id": "C89", "title": "Settings, symbols and line styles of a loaded profile are those written", "statement": "If a profile loads and its symbology file and TopSky files are written as in C80, C82, C83 and C84, with any layout, then each kind of line has the weight and style, each kind of label the alignment and 3.5 times the size, and each map colour the colour of the last line of its item, or else the fixed default; each symbol is the last one of its TopSky name, else the last one of its type in the symbology file, else the built-in one; looking up a symbol by name gives the last one written; the font size of maps, the history dots and the track vectors are those of the last setting of their names if it is a number; and the line styles are the built-in ones and those of the maps file in upper case, with their dashes.", "quantifier": "all profiles, file systems and other files with which the profile loads, all written files, all orders of hash maps, all items, symbols, settings and styles", "why_tests_cant": "all file contents, layouts and names", "anchors": ["src/adaptation/mod.rs Adaptation::from_prf", "src/adaptation/settings/mod.rs", "src/adaptation/settings/track.rs", "src/adaptation/symbols.rs", "src/adaptation/line_styles.rs", "src/adaptation/colours.rs MapColours"]}
{"id": "C90", "title": "Sectors, coordination points and maps of a loaded profile are those written", "statement": "If a profile loads and its .ese file is written as in C78, with any layout, then the departure and destination constraints are the last coordination points of their keys; there is a volume for the last sector of each name exactly if its border closes, with its limits and the ring of its border, and each is in exactly one sector, together with exactly those that have the same owners and active runways; and the sector found at a point and level is the first by name of those that a definition in force there belongs to. The airports are those of the .sct file and of the written navdata file (C79), with the position and runways of the former or the position of the latter, and the name and country of the written lines. If its TopSky maps are written as in C82, every map with a defined colour is filed once, in its folder under its name or its name with the first free number, and folders are hidden exactly if they are AUTO or overridden.", "quantifier": "all profiles, file systems and other files with which the profile loads, all written files, all orders of hash maps, all points and levels", "why_tests_cant": "all file contents, layouts, borders and points", "anchors": ["src/adaptation/mod.rs Adaptation::from_prf", "src/adaptation/sectors.rs", "src/adaptation/sector_index.rs", "src/adaptation/constraints.rs", "src/adaptation/maps/mod.rs", "src/ese.rs Ese::parse", "src/topsky/map/mod.rs"]}
