(* Model of the log-densities used by the importance-sampling correction:
   base/samplers/torch/base_samplers.py:105-117, 140-158, 197-220 with the Gaussian samplers that the 2-2 costs build
   (base/costs_torch/normcost.py:113-116, normlabelcost.py:179-182). Scales are positive scalars. *)
From Coq Require Import Reals List.
From Verif Require Import RList.
Import ListNotations.
Local Open Scope R_scope.

(* torch.distributions.Normal(loc, scale).log_prob(value), one coordinate *)
Definition normal_log_prob (scale loc value : R) : R :=
  - ((value - loc) * (value - loc)) / (2 * (scale * scale)) - ln scale - ln (sqrt (2 * PI)).

(* _format_logprobs, base_samplers.py:105-117: sum over the last axis of a 3-D tensor *)
Definition row_log_prob (scale : R) (loc value : vec) : R := rsum (map2 (normal_log_prob scale) loc value).

(* NoLabelsSampler.log_prob, base_samplers.py:140-147 *)
Definition nolabels_log_prob (scale : R) (mean zeta : vec) : R := row_log_prob scale mean zeta.
(* NoLabelsSampler.log_prob_recentered, base_samplers.py:149-158: zeta - xi + self.data_s.mean *)
Definition nolabels_log_prob_recentered (scale : R) (mean xi zeta : vec) : R :=
  row_log_prob scale mean (vadd (vsub zeta xi) mean).

(* LabeledSampler.log_prob, base_samplers.py:197-206; a point is (features, labels) *)
Definition labelled_log_prob (sx sy : R) (mean zeta : vec * vec) : R :=
  row_log_prob sx (fst mean) (fst zeta) + row_log_prob sy (snd mean) (snd zeta).
(* LabeledSampler.log_prob_recentered, base_samplers.py:208-220: xi and xi_labels are not used *)
Definition labelled_log_prob_recentered (sx sy : R) (mean xi zeta : vec * vec) : R :=
  row_log_prob sx (fst mean) (fst zeta) + row_log_prob sy (snd mean) (snd zeta).
