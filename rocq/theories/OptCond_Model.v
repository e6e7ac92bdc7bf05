(* Model of the stopping condition, solvers/optim_cond.py (class OptCondTorch). *)
From Coq Require Import Reals List Bool String ZArith.
From Verif Require Import PyBase XReal.
Import ListNotations.

(* the names of optim_cond.py:10-13 *)
Definition L_AND_T : list string := ["both"; "theta_and_lambda"; "t&l"; "lambda_and_theta"; "l&t"]%string.
Definition L_OR_T : list string := ["one"; "theta_or_lambda"; "tUl"; "lambda_or_theta"; "lUt"]%string.
Definition JUST_T : list string := ["theta"; "t"]%string.
Definition JUST_L : list string := ["lambda"; "l"]%string.
Definition mem (s : string) (l : list string) : bool := existsb (String.eqb s) l.

(* n_iter: an int or a pair (solvers/utils.py:6, Steps) *)
Inductive steps := SInt (n : Z) | SPair (a b : Z).
(* optim_cond.py:137-140, and _misc_dual_interfaces.py:231-236 *)
Definition train_steps (s : steps) : Z := match s with SInt n => n | SPair _ b => b end.

(* The memory of parameter values: dual_loss.lam returns the parameter itself (dual_loss.py:196-204), so what the condition
   stores is a reference; it is read in the memory of the moment of use. *)
Definition memory := nat -> xr.

(* What an evaluation of the condition can see of the robust loss. *)
Record obs := {
  o_mem : memory;                      (* values of the multipliers *)
  o_lam : nat;                         (* where this loss's multiplier lives *)
  o_lgrad : option xr;                 (* .grad of _lam *)
  o_theta : list (list xr);            (* flattened parameters of the primal loss *)
  o_tgrad : list (option (list xr));   (* their .grad *)
  o_niter : steps
}.

(* the attributes of OptCondTorch; the norm order is the parameter [vnorm] below *)
Record oc := {
  tol_theta : xr; tol_lambda : xr; monitoring : string; mode : string; metric : string; max_iter : Z;
  l_mem : option nat; t_mem : option (list xr); l_0 : option nat; t_0 : option (list xr);
  l_grad_0 : option xr; t_grad_0 : option xr; delta_l_1 : option xr; delta_t_1 : option xr
}.

Definition set_max_iter (n : Z) (c : oc) : oc :=
  {| tol_theta := tol_theta c; tol_lambda := tol_lambda c; monitoring := monitoring c; mode := mode c; metric := metric c;
     max_iter := n; l_mem := l_mem c; t_mem := t_mem c; l_0 := l_0 c; t_0 := t_0 c;
     l_grad_0 := l_grad_0 c; t_grad_0 := t_grad_0 c; delta_l_1 := delta_l_1 c; delta_t_1 := delta_t_1 c |}.
(* assignments to the attributes about theta, and about lambda *)
Definition set_t (m z : option (list xr)) (g d : option xr) (c : oc) : oc :=
  {| tol_theta := tol_theta c; tol_lambda := tol_lambda c; monitoring := monitoring c; mode := mode c; metric := metric c;
     max_iter := max_iter c; l_mem := l_mem c; t_mem := m; l_0 := l_0 c; t_0 := z;
     l_grad_0 := l_grad_0 c; t_grad_0 := g; delta_l_1 := delta_l_1 c; delta_t_1 := d |}.
Definition set_l (m z : option nat) (g d : option xr) (c : oc) : oc :=
  {| tol_theta := tol_theta c; tol_lambda := tol_lambda c; monitoring := monitoring c; mode := mode c; metric := metric c;
     max_iter := max_iter c; l_mem := m; t_mem := t_mem c; l_0 := z; t_0 := t_0 c;
     l_grad_0 := g; t_grad_0 := t_grad_0 c; delta_l_1 := d; delta_t_1 := delta_t_1 c |}.

(* the order argument: an int or a string *)
Inductive order := OrdInt (n : Z) | OrdStr (s : string).
(* __init__, optim_cond.py:81-119: the order check (93-100), then the attributes; verbose is left out *)
Definition oc_init (o : order) (tt tl : xr) (max_iter : option Z) (monitoring mode metric : string) : Result oc :=
  do _ <- match o with
          | OrdStr s => assert_ (String.eqb s "inf")
          | OrdInt n => assert_ (0 <? n)%Z
          end;
  Ok {| tol_theta := tt; tol_lambda := tl; monitoring := monitoring; mode := mode; metric := metric;
        max_iter := match max_iter with None => 0%Z | Some n => n end;
        l_mem := None; t_mem := None; l_0 := None; t_0 := None;
        l_grad_0 := None; t_grad_0 := None; delta_l_1 := None; delta_t_1 := None |}.

(* get_flat_param, optim_cond.py:417-427: pt.concat fails on an empty list *)
Definition get_flat_param (o : obs) : Result (list xr) :=
  match o_theta o with [] => Raise RuntimeError | l => Ok (List.concat l) end.

(* get_flat_grad, optim_cond.py:429-447: NoneGradError is turned into ValueError *)
Fixpoint all_grads (l : list (option (list xr))) : Result (list (list xr)) :=
  match l with
  | [] => Ok []
  | None :: _ => Raise ValueError
  | Some g :: r => do gs <- all_grads r; Ok (g :: gs)
  end.
Definition get_flat_grad (o : obs) : Result (list xr) :=
  do gs <- all_grads (o_tgrad o);
  match gs with [] => Raise RuntimeError | _ => Ok (List.concat gs) end.

(* maybe_flatten_grad_else_raise(dual_loss._lam), optim_cond.py:151-152, utils.py:72-76 *)
Definition lam_grad (o : obs) : Result xr := match o_lgrad o with None => Raise NoneGradError | Some g => Ok g end.

Definition xabs (x : xr) : xr := match x with Fin r => Fin (Rabs r) | MInf => PInf | y => y end.

(* a - b on flat tensors, with torch's broadcasting of one-element tensors *)
Fixpoint map2x (f : xr -> xr -> xr) (a b : list xr) : list xr :=
  match a, b with x :: a', y :: b' => f x y :: map2x f a' b' | _, _ => [] end.
Definition tsub (a b : list xr) : Result (list xr) :=
  if Nat.eqb (List.length a) (List.length b) then Ok (map2x xsub a b)
  else match a, b with
       | [x], _ => Ok (map (fun y => xsub x y) b)
       | _, [y] => Ok (map (fun x => xsub x y) a)
       | _, _ => Raise RuntimeError
       end.

Section Cond.
(* pt.linalg.norm(., self.order): arbitrary *)
Variable vnorm : list xr -> xr.

(* check_metric, optim_cond.py:366-404; the error value returned for printing is dropped *)
Definition check_metric (c : oc) (new mem tol : xr) : Result bool :=
  do _ <- assert_ (xlt (Fin 0) tol);
  if String.eqb (mode c) "rel" then Ok (xlt new (xmul tol mem))
  else if String.eqb (mode c) "abs" then Ok (xlt new tol)
  else Raise ValueError.

(* check_t, optim_cond.py:212-293 *)
Definition check_t (c : oc) (o : obs) : oc * Result bool :=
  if xle (tol_theta c) (Fin 0) then (c, Ok false)
  else if String.eqb (metric c) "grad" then
    match get_flat_grad o with
    | Raise e => (c, Raise e)
    | Ok g =>
        match t_grad_0 c with
        | None => (set_t (t_mem c) (t_0 c) (Some (vnorm g)) (delta_t_1 c) c, Ok false)
        | Some m => (c, check_metric c (vnorm g) m (tol_theta c))
        end
    end
  else if String.eqb (metric c) "param" then
    match get_flat_param o with
    | Raise e => (c, Raise e)
    | Ok th =>
        match t_0 c with
        | None => (set_t (t_mem c) (Some th) (t_grad_0 c) (delta_t_1 c) c, Ok false)
        | Some z =>
            match delta_t_1 c with
            | None =>
                match tsub th z with
                | Raise e => (set_t (Some th) (t_0 c) (t_grad_0 c) None c, Raise e)
                | Ok d => (set_t (Some th) (t_0 c) (t_grad_0 c) (Some (vnorm d)) c, Ok false)
                end
            | Some m1 =>
                match t_mem c with
                | None => (c, Raise AssertionError)
                | Some m =>
                    let c' := set_t (Some th) (t_0 c) (t_grad_0 c) (delta_t_1 c) c in
                    match tsub th m with
                    | Raise e => (c', Raise e)
                    | Ok d => (c', check_metric c (vnorm d) m1 (tol_theta c))
                    end
                end
            end
        end
    end
  else (c, Raise ValueError).

(* check_l, optim_cond.py:295-364: lam() is the parameter itself, so l_0 and l_mem hold references *)
Definition check_l (c : oc) (o : obs) : oc * Result bool :=
  if xle (tol_lambda c) (Fin 0) then (c, Ok false)
  else if String.eqb (metric c) "grad" then
    match lam_grad o with
    | Raise e => (c, Raise e)
    | Ok g =>
        match l_grad_0 c with
        | None => (set_l (l_mem c) (l_0 c) (Some (xabs g)) (delta_l_1 c) c, Ok false)
        | Some m => (c, check_metric c (xabs g) m (tol_lambda c))
        end
    end
  else if String.eqb (metric c) "param" then
    match l_0 c with
    | None => (set_l (l_mem c) (Some (o_lam o)) (l_grad_0 c) (delta_l_1 c) c, Ok false)
    | Some z =>
        match delta_l_1 c with
        | None =>
            (set_l (Some (o_lam o)) (l_0 c) (l_grad_0 c) (Some (xabs (xsub (o_mem o (o_lam o)) (o_mem o z)))) c, Ok false)
        | Some m1 =>
            match l_mem c with
            | None => (c, Raise AssertionError)
            | Some m =>
                (set_l (Some (o_lam o)) (l_0 c) (l_grad_0 c) (delta_l_1 c) c,
                 check_metric c (xabs (xsub (o_mem o (o_lam o)) (o_mem o m))) m1 (tol_lambda c))
            end
        end
    end
  else (c, Raise ValueError).

(* Python evaluates both arguments of combine_intersect / combine_union, check_l first (optim_cond.py:190-199) *)
Definition combine (f : bool -> bool -> bool) (c : oc) (o : obs) : oc * Result bool :=
  match check_l c o with
  | (c1, Raise e) => (c1, Raise e)
  | (c1, Ok a) =>
      match check_t c1 o with
      | (c2, Raise e) => (c2, Raise e)
      | (c2, Ok b) => (c2, Ok (f a b))
      end
  end.

(* check_all_params, optim_cond.py:161-210 *)
Definition check_all_params (c : oc) (o : obs) : oc * Result bool :=
  if mem (monitoring c) L_AND_T then combine andb c o
  else if mem (monitoring c) L_OR_T then combine orb c o
  else if mem (monitoring c) JUST_L then check_l c o
  else if mem (monitoring c) JUST_T then check_t c o
  else (c, Raise ValueError).

(* check_iter, optim_cond.py:406-415 *)
Definition check_iter (c : oc) (it : Z) : bool := if (max_iter c <=? 0)%Z then false else (max_iter c <=? it)%Z.

(* __call__, optim_cond.py:121-159 *)
Definition oc_call (c : oc) (o : obs) (it : Z) : oc * Result bool :=
  let c0 := set_max_iter (train_steps (o_niter o)) c in
  let ci := check_iter c0 it in
  match check_all_params c0 o with
  | (c1, Ok cp) => (c1, Ok (ci || cp))
  | (c1, Raise e) => (c1, Raise e)
  end.

(* a sequence of calls of the same object *)
Fixpoint evals (c : oc) (l : list (obs * Z)) : list (Result bool) :=
  match l with
  | [] => []
  | (o, it) :: r => let '(c', x) := oc_call c o it in x :: evals c' r
  end.
Fixpoint oc_after (c : oc) (l : list (obs * Z)) : oc :=
  match l with [] => c | (o, it) :: r => oc_after (fst (oc_call c o it)) r end.
End Cond.
