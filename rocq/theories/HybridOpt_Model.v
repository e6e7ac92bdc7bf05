(* Model of solvers/hybrid_opt.py. Values are exact reals (no rounding, so exp never underflows to 0). *)
From Coq Require Import Reals List Bool String.
From Verif Require Import PyBase RList XReal.
Import ListNotations.
Open Scope R_scope.

(* a parameter tensor with its .grad *)
Record par := { val : list R; grad : option (list R) }.
(* a parameter group: a dict with 'params', 'lr' and any other keys; only the keys count for the rules *)
Record group := { g_keys : list string; g_lr : R; g_params : list par }.

Definition upd (f : list R -> list R) (p : par) : par := {| val := f (val p); grad := grad p |}.

(* a rule changes a parameter in place, or raises *)
Definition rule := par -> par * option exn.

(* prerule_mwu and prerule_mwu_simplex, hybrid_opt.py:23-26, 34-37 *)
Definition pre_mwu : rule := fun p =>
  if forallb (fun x => Rltb 0 x) (val p) then (upd (map ln) p, None) else (p, Some AssertionError).
(* postrule_mwu, hybrid_opt.py:29-31 *)
Definition post_mwu : rule := fun p => (upd (map exp) p, None).
(* postrule_mwu_simplex, hybrid_opt.py:40-43 *)
Definition post_simplex : rule := fun p =>
  (upd (fun v => let e := map exp v in map (fun x => x / rsum e) e) p, None).
(* postrule_non_neg, hybrid_opt.py:46-48 *)
Definition post_non_neg : rule := fun p => (upd (map (Rmax 0)) p, None).
(* rule_max, hybrid_opt.py:51-54 *)
Definition rule_max : rule := fun p => (upd (map Ropp) p, None).
(* prerule_bound, hybrid_opt.py:57-59, BOUND of line 6; p.grad.clip_ of a missing gradient is an AttributeError *)
Definition BOUND : R := 100.
Definition clip (x : R) : R := Rmin BOUND (Rmax (- BOUND) x).
Definition pre_bound : rule := fun p =>
  match grad p with
  | None => (p, Some AttributeError)
  | Some g => ({| val := val p; grad := Some (map clip g) |}, None)
  end.

(* the tables filled by the decorators, hybrid_opt.py:9-20 *)
Definition PRERULES : list (string * rule) :=
  [("mwu", pre_mwu); ("mwu_simplex", pre_mwu); ("max", rule_max); ("bound", pre_bound)]%string.
Definition POSTRULES : list (string * rule) :=
  [("mwu", post_mwu); ("mwu_simplex", post_simplex); ("non_neg", post_non_neg); ("max", rule_max)]%string.

(* group.keys() & rules.keys() *)
Definition intersection (rules : list (string * rule)) (g : group) : list (string * rule) :=
  filter (fun kr => existsb (String.eqb (fst kr)) (g_keys g)) rules.

(* for p in group['params']: rules[key](p) *)
Fixpoint apply_params (r : rule) (ps : list par) : list par * option exn :=
  match ps with
  | [] => ([], None)
  | p :: rest =>
      match r p with
      | (p', Some e) => (p' :: rest, Some e)
      | (p', None) => let (rest', x) := apply_params r rest in (p' :: rest', x)
      end
  end.
Definition with_params (g : group) (ps : list par) : group := {| g_keys := g_keys g; g_lr := g_lr g; g_params := ps |}.

(* _apply_rules, hybrid_opt.py:66-74 *)
Fixpoint apply_rules (rules : list (string * rule)) (gs : list group) : list group * option exn :=
  match gs with
  | [] => ([], None)
  | g :: rest =>
      match intersection rules g with
      | [] => let (rest', x) := apply_rules rules rest in (g :: rest', x)
      | [(_, r)] =>
          match apply_params r (g_params g) with
          | (ps, Some e) => (with_params g ps :: rest, Some e)
          | (ps, None) => let (rest', x) := apply_rules rules rest in (with_params g ps :: rest', x)
          end
      | _ => (g :: rest, Some AssertionError)
      end
  end.

(* step, hybrid_opt.py:76-81; the inner optimiser (SGD, Adam) is arbitrary and may raise *)
Definition hstep (inner : list group -> list group * option exn) (gs : list group) : list group * option exn :=
  match apply_rules PRERULES gs with
  | (g1, Some e) => (g1, Some e)
  | (g1, None) =>
      match inner g1 with
      | (g2, Some e) => (g2, Some e)
      | (g2, None) => apply_rules POSTRULES g2
      end
  end.

(* torch.optim.SGD without momentum, weight decay, ...: p - lr * grad, parameters without gradient skipped (torch's documentation) *)
Definition sgd_par (lr : R) (p : par) : par :=
  match grad p with
  | None => p
  | Some g => {| val := map2 (fun x d => x - lr * d) (val p) g; grad := grad p |}
  end.
Definition sgd (gs : list group) : list group * option exn :=
  (map (fun g => with_params g (map (sgd_par (g_lr g)) (g_params g))) gs, None).

(* backward passes between the steps: new gradients for every parameter *)
Definition set_grads (new : list (list (option (list R)))) (gs : list group) : list group :=
  map2 (fun g ds => with_params g (map2 (fun p d => {| val := val p; grad := d |}) (g_params g) ds)) gs new.
(* a training history: gradients, step, gradients, step, ... stopping at the first exception *)
Fixpoint train (inner : list group -> list group * option exn) (hist : list (list (list (option (list R))))) (gs : list group)
  : list group * option exn :=
  match hist with
  | [] => (gs, None)
  | ds :: rest => match hstep inner (set_grads ds gs) with
                  | (g1, Some e) => (g1, Some e)
                  | (g1, None) => train inner rest g1
                  end
  end.
