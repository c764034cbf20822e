{
 "C12": {
  "note": "exact arithmetic; in IEEE double arithmetic the index can be out of range (C12_binary64_refuted)"
 },
 "C14": {
  "note": "wrapping boundIndexToRange, exact arithmetic; non-cleared layers keep stale data (C14_nonbasic_stale_refuted)"
 },
 "C17": {
  "note": "refutation in IEEE doubles with the clamping boundIndexToRange; correctness for all non-wrapping moves under either policy"
 },
 "C44": {
  "note": "C44_exp uses the axioms of Coq's real numbers; the other theorems none"
 }
}