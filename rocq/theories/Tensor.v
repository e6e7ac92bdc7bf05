(* Small library: dense tensors as a shape and row-major data, with the torch operations that the loss classes use.
   Tensors built by the models are well formed ([wf]); the operations do not check it. *)
From Coq Require Import Reals List Lia Arith.
From Verif Require Import PyBase RList.
Import ListNotations.
Local Open Scope R_scope.

Record tensor := mkT { shp : list nat; dat : list R }.

Fixpoint prodl (s : list nat) : nat := match s with [] => 1 | n :: r => n * prodl r end.
Definition wf (t : tensor) : Prop := length (dat t) = prodl (shp t).

(* x.dim() *)
Definition tdim (t : tensor) : nat := length (shp t).
(* n rows of width k *)
Fixpoint chunks (n k : nat) (l : list R) : list (list R) :=
  match n with O => [] | S n' => firstn k l :: chunks n' k (skipn k l) end.
(* the vectors along the last axis *)
Definition trows (t : tensor) : list (list R) := chunks (prodl (removelast (shp t))) (last (shp t) 1%nat) (dat t).
(* x.flatten(start_dim=0, end_dim=-2), at least two axes *)
Definition flatten2 (t : tensor) : tensor := mkT [prodl (removelast (shp t)); last (shp t) 1%nat] (dat t).
(* x.squeeze(), x.unsqueeze(-1), x.unsqueeze(0) *)
Definition squeeze (t : tensor) : tensor := mkT (filter (fun n => negb (Nat.eqb n 1)) (shp t)) (dat t).
Definition unsqueeze_last (t : tensor) : tensor := mkT (shp t ++ [1%nat]) (dat t).
Definition unsqueeze_first (t : tensor) : tensor := mkT (1%nat :: shp t) (dat t).
(* x.mean(dim=-1, keepdim=True); on a 0-dimensional tensor it is the identity *)
Definition mean_last (t : tensor) : tensor :=
  match shp t with [] => t | _ => mkT (removelast (shp t) ++ [1%nat]) (map rmean (trows t)) end.
(* x.view(s), x.reshape(s) *)
Definition view (s : list nat) (t : tensor) : Result tensor :=
  if Nat.eqb (prodl s) (length (dat t)) then Ok (mkT s (dat t)) else Raise RuntimeError.
(* x + c for a scalar *)
Definition addc (c : R) (t : tensor) : tensor := mkT (shp t) (map (fun a => a + c) (dat t)).
(* elementwise map *)
Definition tmap (f : R -> R) (t : tensor) : tensor := mkT (shp t) (map f (dat t)).

(* a batch: points of width k arranged along the axes b *)
Definition batch (b : list nat) (k : nat) (xs : list (list R)) : tensor := mkT (b ++ [k]) (List.concat xs).
Definition widths (k : nat) (xs : list (list R)) : Prop := Forall (fun x => length x = k) xs.

Lemma prodl_app s t : prodl (s ++ t) = (prodl s * prodl t)%nat.
Proof. induction s as [|n s IH]; simpl; [lia|]. rewrite IH. lia. Qed.

Lemma concat_length k xs : widths k xs -> length (List.concat xs) = (length xs * k)%nat.
Proof. induction 1 as [|x xs H _ IH]; simpl; [reflexivity|]. rewrite app_length, IH, H. reflexivity. Qed.

Lemma batch_wf b k xs : widths k xs -> prodl b = length xs -> wf (batch b k xs).
Proof. intros W P. unfold wf, batch. simpl. rewrite (concat_length k xs W), prodl_app, P. simpl. lia. Qed.

Lemma removelast_snoc {A} (b : list A) k : removelast (b ++ [k]) = b.
Proof. rewrite removelast_app by discriminate. simpl. apply app_nil_r. Qed.

Lemma last_snoc {A} (b : list A) k d : last (b ++ [k]) d = k.
Proof. apply last_last. Qed.

Lemma chunks_concat k xs : widths k xs -> chunks (length xs) k (List.concat xs) = xs.
Proof.
  induction 1 as [|x xs H _ IH]; simpl; [reflexivity|]. rewrite <- H, firstn_app, Nat.sub_diag, firstn_all, app_nil_r. f_equal.
  rewrite skipn_app, Nat.sub_diag, skipn_all. simpl. rewrite H. exact IH.
Qed.

Lemma trows_batch b k xs : widths k xs -> prodl b = length xs -> trows (batch b k xs) = xs.
Proof. intros W P. unfold trows, batch. simpl. rewrite removelast_snoc, last_snoc, P. apply chunks_concat. exact W. Qed.

Lemma flatten2_batch b k xs : prodl b = length xs -> flatten2 (batch b k xs) = batch [length xs] k xs.
Proof. intros P. unfold flatten2, batch. simpl. rewrite removelast_snoc, last_snoc, P. reflexivity. Qed.

Lemma batch_dim b k xs : tdim (batch b k xs) = S (length b).
Proof. unfold tdim, batch. simpl. rewrite app_length. simpl. lia. Qed.

Lemma prodl_snoc_1 b : prodl (b ++ [1%nat]) = prodl b.
Proof. rewrite prodl_app. simpl. lia. Qed.

Lemma widths_singletons (l : list R) : widths 1 (map (fun a => [a]) l).
Proof. apply Forall_map. apply Forall_forall. reflexivity. Qed.

Lemma concat_singletons {A} (l : list A) : List.concat (map (fun a => [a]) l) = l.
Proof. induction l; simpl; [reflexivity|]. rewrite IHl. reflexivity. Qed.

Lemma map_concat_add c xs : map (fun a => a + c) (List.concat xs) = List.concat (map (map (fun a => a + c)) xs).
Proof. apply concat_map. Qed.
