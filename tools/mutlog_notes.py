VERDICT = {
'MSelection:7138:interval_next (interval_from_raw (normalized r))>interval_next (interval_from_raw r)': dict(claim='none: equivalent program', failed=[], note='from_raw normalizes, so normalizing before changes nothing; only a lemma that follows the text fails.'),
'MTineTree:4349:| None => (saved_lower it, ts, None)>| None => (saved_lower it, ts, saved_lower it)': dict(claim='none: equivalent program', failed=[], note='A kept tine is a hole and is kept again by the next line; only the proof script, which follows the text, fails.'),
'MTineTree:3743:| Some t => (Some t, tine_iter it)>| Some t => (None, tine_iter it)': dict(claim='none: equivalent program', note='saved_upper is never set, so this arm is not reached.'),
'MTineTree:2507:| None => Ok (None, {| tine_iter := ts; saved_lower := None>| None => Ok (None, {| tine_iter := ts; saved_lower := saved_lower it': dict(claim='none: equivalent program', note='This arm is only reached when saved_lower is None, which is what is kept.'),
'MRaw:6028:false>true': dict(claim='none: equivalent program', note='A finite bound against an infinite one: an infinite bound is neither inclusive nor exclusive, so the rest of the test is false either way, and the assertions on tines compare tines at one location only.'),
'MParse:1620:<=?><?': dict(claim='none: equivalent program', note='The boundary test is only made on the last byte of a string that ends in an ASCII bracket, which is below 0x80.'),
'MTineTree:9703:false>true': dict(claim='none: equivalent program', note='The assertion lower < upper holds for the two ends of every interval whose ends are in order, the only ones the constructors make, so it never fires with or without the edit.'),
'MSelection:6278:||>&&': dict(claim='none: equivalent program', note='Both sides of every Selection are bounded (C67_sides_bounded), so is_half_bounded is always false with either operator.', tightened=['C67_sides_bounded (added when this survived)']),
'MBound:3493:ltb>leb': dict(claim='none: equivalent program', note='Include p against Include q with p = q: both branches return the same bound.'),
'MInterval:5208:true>false': dict(claim='none: equivalent program', note='An Interval is always Empty, Point or Closed (C19), so the first match arm of is_left_open is never taken by what the API builds; on deserialised shapes C90_open_exact, added since, fails on it.'),
'MParse:1663:<=?><?': dict(claim='none: equivalent program', note='The boundary test is only made on the last byte of a string that ends in an ASCII bracket.'),
'MNormalize:1846:UpTo>To': dict(claim='C17: what denormalize keeps of To(p)', note='Survived the theorem set of the base build; the two theorems added since fail on it.', tightened=['C17_denormalize_half_partial', 'C17_denormalize_open'], failed=['C17_denormalize_half_partial', 'C17_denormalize_open']),
'MBound:4756:gtb>geb': dict(claim='none: equivalent program', note='Exclude p against Exclude q (or Include, Include) with p = q: both branches return the same bound.'),
'MSelection:5584:true>false': dict(claim='none: equivalent program', note='If lower_bound() is None then so is upper_bound(), so this arm of is_bounded is never taken on a Selection the API can build.'),
'MInterval:5794:false>true': dict(claim='none: equivalent program', note='An Interval is always Empty, Point or Closed (C19), so the last arm of is_closed is never taken.'),
'MInterval:5948:RightOpen>LeftOpen': dict(claim='C90: is_left_closed of a deserialised RightOpen interval', note='Survived the theorem set of the base build (no constructor makes the shape); C90_side_closed, added since, fails on it.', tightened=['C90_side_closed'], failed=['C90_side_closed']),
'MBound:4092:gtb>geb': dict(claim='none: equivalent program', note='Include p against Include q with p = q: both branches return the same bound.'),
'MBoundP:3728:false>true': dict(claim='C94: == of bounds on PartialOrd types', note='The algebra theorem was stated up to == without saying what == is; C94_equality, added for this, fails on it.', tightened=['C94_equality'], failed=['C94_equality']),
'MBoundP:3785:false>true': dict(claim='C94: == of bounds on PartialOrd types', note='The algebra theorem was stated up to == without saying what == is; C94_equality, added for this, fails on it.', tightened=['C94_equality'], failed=['C94_equality']),
'MTine:2778:Exclude>Include': dict(claim='none: equivalent program', note='The arm TLower lb, TLower _ below it returns the same tine for Include against Exclude.'),
'MTine:4606:Exclude>Include': dict(claim='none: equivalent program', note='The arm TUpper lb, TUpper _ below it returns the same tine for Include against Exclude.'),
'MTine:6460:Include>Exclude': dict(claim='none: equivalent program', note='The arm TUpper lb, TUpper _ below it returns the same tine for Exclude against Include.'),
'MTineTree:5201:+>-': dict(claim='none: equivalent program', note='iter_size is the fuel of loops over a fresh iterator, whose saved tines are None: adding and subtracting nothing agree.'),
'Ints:4692:&&>||': dict(claim='none: equivalent program', note='succ adds 1 only to values other than MAX, so the overflow test of a debug build never fires (int_succ_ok).'),
'Ints:4685:<=?><?': dict(claim='none: equivalent program', note='z is one more than a value of the type, so it is above MIN either way.'),
'Ints:4519:<=?><?': dict(claim='none: equivalent program', note='z is one less than a value of the type, so it is below MAX either way.'),
'MSelection:6036:true>false': dict(claim='none: equivalent program', note='upper_bound of a Selection is never Infinite (C67_sides_bounded: normalized intervals have finite bounds), so this arm is never taken.'),
'MSelection:5814:true>false': dict(claim='none: equivalent program', note='lower_bound of a Selection is never Infinite (C67_sides_bounded: normalized intervals have finite bounds), so this arm is never taken.'),
'MCrash:10637:Include>Exclude': dict(claim='none: equivalent program', note='from_raw_interval yields a single tine only for Point, which an earlier arm takes.'),
'MCrash:11846:btree_first>btree_last': dict(claim='none: the claim stays true', note='the edit changes only whether the same left-over state is listed as a crash point, and the theorems hold for that state whether or not it is'),
'MCrash:11801:btree_last>btree_first': dict(claim='none: the claim stays true', note='the edit changes only whether the same left-over state is listed as a crash point, and the theorems hold for that state whether or not it is'),
'MCrash:12292:btree_first>btree_last': dict(claim='none: the claim stays true', note='the edit changes only whether the same left-over state is listed as a crash point, and the theorems hold for that state whether or not it is'),
'MCrash:12247:btree_last>btree_first': dict(claim='none: the claim stays true', note='the edit changes only whether the same left-over state is listed as a crash point, and the theorems hold for that state whether or not it is'),
'MCrash:12563:true>false': dict(claim='none: the claim stays true', note='the assertion guards only whether crash points are listed; it never fails for the ends of an interval in order, and the states listed after it are unchanged'),
'MCrash:12575:false>true': dict(claim='none: the claim stays true', note='the assertion guards only whether crash points are listed; it never fails for the ends of an interval in order, and the states listed after it are unchanged'),
'MCrash:12914:btree_first>btree_last': dict(claim='none: the claim stays true', note='the edit changes only whether the same left-over state is listed as a crash point, and the theorems hold for that state whether or not it is'),
'MCrash:13007:btree_first>btree_last': dict(claim='none: the claim stays true', note='the edit changes only whether the same left-over state is listed as a crash point, and the theorems hold for that state whether or not it is'),
'MCrash:12869:btree_last>btree_first': dict(claim='none: the claim stays true', note='the edit changes only whether the same left-over state is listed as a crash point, and the theorems hold for that state whether or not it is'),
'MCrash:12965:btree_last>btree_first': dict(claim='none: the claim stays true', note='the edit changes only whether the same left-over state is listed as a crash point, and the theorems hold for that state whether or not it is'),
'MCrash:12557:Lt>Gt': dict(claim='none: the claim stays true', note='the assertion guards only whether crash points are listed; it never fails for the ends of an interval in order, and the states listed after it are unchanged'),
'MCrash:12557:Lt>Eq': dict(claim='none: the claim stays true', note='the assertion guards only whether crash points are listed; it never fails for the ends of an interval in order, and the states listed after it are unchanged'),
'MCrash:13617:||>&&': dict(claim='none: the claim stays true', note='crash points are listed for one more no-op call, and the tree is the old one at each'),
'MCrash:14134:||>&&': dict(claim='none: the claim stays true', note='crash points are listed for one more no-op call, and the tree is the old one at each'),
'MTine:10046:Eq>Gt': dict(claim='none: equivalent program', note='The edited value stands for a panic that only the tine Point(Infinite) can cause, and no operation builds it (C27_tines_arising).'),
'MTine:10046:Eq>Lt': dict(claim='none: equivalent program', note='The edited value stands for a panic that only the tine Point(Infinite) can cause, and no operation builds it (C27_tines_arising).'),
'MDebug:4305:tuple "LeftOpen" [show l; show r]>tuple "LeftOpen" [show r; show l]': dict(claim='C111: the two ends are swapped in {:#?}', note='Different values still print differently, so C111_multi_line and C111_distinguishes held; C111_layout, added for this, fails on it.', tightened=['C111_layout']),
'MDebug:3207:pad true>pad false': dict(claim='C111: the first line of a field is not indented in {:#?}', note='Different values still print differently, so C111_multi_line and C111_distinguishes held; C111_layout, added for this, fails on it.', tightened=['C111_layout']),
'MDebug:3004:"    ">"  "': dict(claim='C111: two blanks instead of four in {:#?}', note='Different values still print differently, so C111_multi_line and C111_distinguishes held; C111_layout, added for this, fails on it.', tightened=['C111_layout']),
'MDebug:1832:"Closed(" ++ show l ++ ", " ++ show r>"Closed(" ++ show r ++ ", " ++ show l': dict(claim='C111: the two ends are swapped in {:?}', note='Different values still print differently, so C111_multi_line and C111_distinguishes held; C111_layout, added for this, fails on it.', tightened=['C111_layout']),
"MBTree:2299:| Eq => y :: btree_append a' b'>| Eq => x :: btree_append a' b'": dict(claim='none: equivalent program', note='The two parts that are merged were split at a tine, so no element of one compares Equal to one of the other.'),
'MSerde:6655:| None => Ok None>| None => Ok (Some s)': dict(claim='C89: a tree with a broken element is an error', note='Survived the theorem set of the base build; C89_read_exact, added since, fails on it.', tightened=['C89_read_exact'], failed=['C89_read_exact']),
}
