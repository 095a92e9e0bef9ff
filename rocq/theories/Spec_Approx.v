(** Vocabulary of the statements about least squares on surfaces. *)
From Coq Require Import List Arith Reals.
From Verif Require Import Model_Base Model_Basis Model_Curve Model_Interp Model_Surface Model_Skin Spec_Base Spec_Basis Spec_Interp.
Local Open Scope R_scope.

(** [e] is the gap, in coordinate [c], between the derivative of order (du, dv) of the surface
    at (u, v) and the point [x]. *)
Definition gap (eps : R) (ku kv : list R) (P : list (pt R)) (p q : nat) (u v : R) (du dv : nat) (x : pt R)
    (c : nat) (e : R) : Prop :=
  exists z, @surf_eval R (NumR eps) u v ku kv P p q du dv = Ok z /\ e = z c - x c.

(** A solver that, when it returns, returns a minimiser of |N x - b|^2. *)
Definition least_squares_solver (S : @solver R) : Prop :=
  forall N b x, S N b = Ok x -> length b = m_rows N ->
    length x = m_cols N /\
    forall y, length y = m_cols N ->
      sumn (m_rows N) (fun i => (sumn (m_cols N) (fun j => m_cell N i j * nth j x 0) - nth i b 0) ^ 2) <=
      sumn (m_rows N) (fun i => (sumn (m_cols N) (fun j => m_cell N i j * nth j y 0) - nth i b 0) ^ 2).

(** The parameters [u] determine the poles: only the null curve vanishes at all of them. *)
Definition resolve (eps : R) (k : list R) (n p : nat) (u : list R) : Prop :=
  forall P : list (pt R), length P = n ->
    (forall x, In x u -> exists z, @eval_value R (NumR eps) x k P p 0 = Ok z /\ z 0%nat = 0) ->
    forall i, (i < n)%nat -> nth i P (fun _ => 0) 0%nat = 0.

(** The same for constraints on a surface of n x m poles. *)
Definition resolve_surface (eps : R) (ku kv : list R) (n m p q : nat) (Q : list (@scons R)) : Prop :=
  forall P : list (pt R), length P = (n * m)%nat ->
    (forall c, In c Q -> exists z,
       @surf_eval R (NumR eps) (sc_u c) (sc_v c) ku kv P p q (sc_du c) (sc_dv c) = Ok z /\ z 0%nat = 0) ->
    forall i, (i < n * m)%nat -> nth i P (fun _ => 0) 0%nat = 0.

(** A least squares solver that returns for every matrix of full column rank. *)
Definition complete_least_squares (S : @solver R) : Prop :=
  least_squares_solver S /\
  forall N b, length b = m_rows N ->
    (forall x, (forall i, (i < m_rows N)%nat -> sumn (m_cols N) (fun j => m_cell N i j * x j) = 0) ->
       forall j, (j < m_cols N)%nat -> x j = 0) ->
    exists x, S N b = Ok x.
