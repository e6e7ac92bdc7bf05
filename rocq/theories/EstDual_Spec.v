(* Specification side of the robust losses of the estimators: the soft robust objective of a loss on given samples, the penalty on the
   parameters, and samples displaced along gradients. *)
From Coq Require Import Reals List.
From Verif Require Import PyBase RList.
Import ListNotations.
Local Open Scope R_scope.

(* lam rho^power + mean_j  e log mean_i exp ((L(z_ij) - lam c(x_j, z_ij)) / e), with labels and without *)
Definition robust_labelled (cost : vec * vec -> vec * vec -> R) (power rho e lam : R) (L : vec -> vec -> R) (xs ys : list vec) (zs zls : list (list vec)) : R :=
  lam * Rpower rho power + rmean (map (fun j => e * ln (rmean (map exp
    (map2 (fun z zl => (L (nth j z []) (nth j zl []) - lam * cost (nth j xs [], nth j ys []) (nth j z [], nth j zl [])) / e) zs zls)))) (seq 0 (List.length xs))).
Definition robust (cost : vec -> vec -> R) (power rho e lam : R) (L : vec -> R) (xs : list vec) (zs : list (list vec)) : R :=
  lam * Rpower rho power + rmean (map (fun j => e * ln (rmean (map exp
    (map (fun z => (L (nth j z []) - lam * cost (nth j xs []) (nth j z [])) / e) zs)))) (seq 0 (List.length xs))).
(* the same with the samples of point x weighted by weight j x z *)
Definition robust_weighted (cost : vec -> vec -> R) (power rho e lam : R) (L : vec -> R) (weight : nat -> vec -> vec -> R) (xs : list vec) (zs : list (list vec)) : R :=
  lam * Rpower rho power + rmean (map (fun j => e * ln (rmean
    (map (fun z => exp ((L (nth j z []) - lam * cost (nth j xs []) (nth j z [])) / e) * weight j (nth j xs []) (nth j z [])) zs))) (seq 0 (List.length xs))).

(* the Euclidean penalty: nothing for a weight that is not positive *)
Definition penalty (l2 : R) (params : vec) : R := Rmax 0 l2 / 2 * sqnorm params.

(* every sample of data point j moved by step (g_j) *)
Definition displaced (step : vec -> vec) (G : list vec) (zs : list (list vec)) : list (list vec) := map (fun z => map2 (fun v g => vadd v (step g)) z G) zs.
