{
 "C02": {
  "note": "double computation with any accurate log2, sides below 2^45; false for huge sides"
 },
 "C20": {
  "note": "copy and assignment are value copies of the modelled state"
 },
 "C67": {
  "note": "proved for every matrix whose two code-length tables are complete; completeness itself is proved up to 2^15 elements (C65) and, for any size, when (longest run of zeros + 1) * elements <= 2^30 and values * (largest jump of the exponent + 2)^2 <= 2^28 (C67_wide_partial); it is false for some other large matrices"
 }
}