{
 "C78": {
  "note": "np.linalg.pinv as an argument with a contract (two Penrose equations on symmetric matrices); existence of such a function is proved"
 },
 "C79": {
  "note": "includes the exact condition under which the script's weights are importance weights"
 },
 "C84": {
  "note": "both classes; exact real score of the stored double ensembles versus the double the query returns; the accuracy of the flows themselves is not claimed"
 },
 "C85": {
  "note": "C85_forward, C85_backward, C85_bridge_flow, C85_stochastic (DPFC), C85_torch_forward, C85_torch_backward, C85_torch_stochastic: every stored step, with the rounding bound and the finiteness certificate; C85_finite_history, C85_torch_finite_history: infinities never heal. One step only: the error of the scores themselves (linear solver) and its accumulation over the run are not bounded."
 },
 "C86": {
  "note": "C86_stochastic_accuracy (DPFC: all grid points except the last, which is pinned to y2, C14), C86_torch_stochastic_accuracy (torched_DPFC: all grid points). Stochastic mode without reweighting only; the deterministic flows involve the solver of the score estimator, for which no error bound is assumed. Binary64 for both classes."
 }
}