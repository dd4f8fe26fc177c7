{
 "H08": "Unreachable: function statements are never lowered (C33_functions_refuted), so no observable claim changes.",
 "A05": "C11 is unaffected: the lexer never uses the negation at the end of input.",
 "A09": "C57 does not mention bump_then; the lexer theorems over it fail.",
 "X04": "C28 stays true (ranges stay within the text); C24 and C71 fail.",
 "Y03": "C15, C24 and C31 do not depend on sibling positions; C28 stays true because the ranges stay within the text.",
 "K04": "C22 is about the calls the sink receives, which do not change.",
 "K07": "C05 is about the tokenizer, which does not change; C15 fails.",
 "D06": "C62 is about the set_config calls the server makes, which do not change; C61 and C63 fail.",
 "F01": "C66 makes no claim about the dot token of a static function name; C76 fails.",
 "UR12": "C79 makes no claim about versions; the version a client gives is checked in C48 and C52 (this edit changes the wire model only).",
 "PA06": "C59 is stated on components (Stdx.v), which this edit does not touch; C84 fails.",
 "SV07": "C62 is about the configurations received, whatever the ids of the requests; C50 and C53 (which ids are pending) fail.",
 "SV12": "C62 is about the configurations received; a second response to one request is then accepted, and C50 and C53 fail.",
 "SV13": "C52 is about open documents. No theorem failed at first; C87 was added for the versions.",
 "O14": "C58 is about the macro for every declaration, which does not change; C18 to C21, C72 and others, which are about the declaration of the code, fail.",
 "LI01": "The edit breaks ranges, which C43 claims (and catches); C42, about positions, stays true: the attribution was wrong.",
 "AC01": "FunctionDefContent::can_cast: C66 and C33 are not falsified, since the accessor returns None on every accepted program; C76_casts fails"
}