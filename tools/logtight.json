{
 "R10": [
  "C35_full"
 ],
 "H03": [
  "C32_block_ids_partial"
 ],
 "H07": [
  "C33_items_partial"
 ],
 "H09": [
  "C33_items_partial"
 ],
 "H10": [
  "C33_items_partial"
 ],
 "X09": [
  "C24_diagnostics_exactly (new; listed for C24, C26 and C27)"
 ],
 "UR01": [
  "C79_decoding (new)",
  "C79_denotes (new)"
 ],
 "UR10": [
  "C79_decoding (new)",
  "C79_denotes (new)"
 ],
 "SE07": [
  "C65_exactly (new; from the options)",
  "C65_initial_never (now from the options)",
  "C65_refuted (now from the options)"
 ],
 "SV13": [
  "C87_close (new)",
  "C87_versions (new)"
 ],
 "RP07": [
  "C36_reparse_errors"
 ],
 "RP10": [
  "C36_reparse_errors"
 ],
 "VF06": [
  "C47_record"
 ],
 "VF07": [
  "C47_record"
 ],
 "VF08": [
  "C47_has_changes"
 ],
 "VF09": [
  "C45_len"
 ],
 "CG03": [
  "C76_punctuation"
 ],
 "TE04": [
  "C37_constructors"
 ],
 "TE05": [
  "C37_constructors"
 ]
}