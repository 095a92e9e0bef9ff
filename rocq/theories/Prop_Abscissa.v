(** Derivatives with respect to the curvilinear abscissa (C97). *)
From Coq Require Import Reals List Arith.
From Verif Require Import Model_Base Model_Wrap Model_Abscissa Spec_Base Spec_Build Spec_Motion Spec_Abscissa Proof_Abscissa.
Import ListNotations.
Local Open Scope R_scope.

(** d_dm and d_dm2 are the first two derivatives of the curve with respect to its curvilinear
    abscissa. *)
Theorem C97_curve : forall eps dim a b c d (g : gcurve R) (C0 C1 C2 : R -> vec) phi,
  (forall x, a < x < b -> g_value g x 0 = Ok (C0 x) /\ g_value g x 1 = Ok (C1 x) /\ g_value g x 2 = Ok (C2 x)) ->
  regular dim a b C0 C1 C2 -> by_length dim a b c d C1 phi ->
  exists T N, (forall s, c < s < d ->
      @d_dm R (NumR eps) sqrt dim g (phi s) = Ok (T s) /\ @d_dm2 R (NumR eps) dim g (phi s) = Ok (N s)) /\
  derivatives_of dim c d (fun s => C0 (phi s)) T N.
Proof. exact abscissa_prop. Qed.
Print Assumptions C97_curve.
(** The first is a unit vector, the second is normal to it. *)
Theorem C97_unit : forall eps dim (g : gcurve R) u (c t n : vec),
  g_value g u 0 = Ok c -> g_value g u 1 = Ok t -> g_value g u 2 = Ok n -> nonzero dim t ->
  exists T N, @d_dm R (NumR eps) sqrt dim g u = Ok T /\ @d_dm2 R (NumR eps) dim g u = Ok N /\
    sqlen dim T = 1 /\ inner_product dim T N = 0.
Proof. exact abscissa_unit. Qed.
Print Assumptions C97_unit.
(** d_dms and d_dm2s give them at every parameter of the list, in its order. *)
Theorem C97_lists : forall eps dim (g : gcurve R) (us : list R),
  (forall u, In u us -> exists c t n, g_value g u 0 = Ok c /\ g_value g u 1 = Ok t /\ g_value g u 2 = Ok n /\ nonzero dim t) ->
  exists Ts Ns, @d_dms R (NumR eps) sqrt dim g us = Ok Ts /\ @d_dm2s R (NumR eps) dim g us = Ok Ns /\
    Forall2 (fun u T => @d_dm R (NumR eps) sqrt dim g u = Ok T) us Ts /\
    Forall2 (fun u N => @d_dm2 R (NumR eps) dim g u = Ok N) us Ns.
Proof. exact abscissa_lists. Qed.
Print Assumptions C97_lists.
(** On a surface, d_dmu and d_dmu2 are the derivatives along the line of constant v, d_dmv and
    d_dmv2 along the line of constant u. *)
Theorem C97_surface_u : forall eps dim a b c d (s : gsurf R) (v : R) (C0 C1 C2 : R -> vec) phi,
  (forall x, a < x < b -> s x v 0%nat 0%nat = Ok (C0 x) /\ s x v 1%nat 0%nat = Ok (C1 x) /\ s x v 2%nat 0%nat = Ok (C2 x)) ->
  regular dim a b C0 C1 C2 -> by_length dim a b c d C1 phi ->
  exists T N, (forall t, c < t < d ->
      @d_dmu R (NumR eps) sqrt dim s (phi t) v = Ok (T t) /\ @d_dmu2 R (NumR eps) dim s (phi t) v = Ok (N t)) /\
  derivatives_of dim c d (fun t => C0 (phi t)) T N.
Proof. exact abscissa_u. Qed.
Print Assumptions C97_surface_u.
Theorem C97_surface_v : forall eps dim a b c d (s : gsurf R) (u : R) (C0 C1 C2 : R -> vec) phi,
  (forall x, a < x < b -> s u x 0%nat 0%nat = Ok (C0 x) /\ s u x 0%nat 1%nat = Ok (C1 x) /\ s u x 0%nat 2%nat = Ok (C2 x)) ->
  regular dim a b C0 C1 C2 -> by_length dim a b c d C1 phi ->
  exists T N, (forall t, c < t < d ->
      @d_dmv R (NumR eps) sqrt dim s u (phi t) = Ok (T t) /\ @d_dmv2 R (NumR eps) dim s u (phi t) = Ok (N t)) /\
  derivatives_of dim c d (fun t => C0 (phi t)) T N.
Proof. exact abscissa_v. Qed.
Print Assumptions C97_surface_v.

(** A curve whose speed varies meets the hypotheses. *)
Example C97_nonvacuous : exists a b c d C0 C1 C2 phi, regular 3 a b C0 C1 C2 /\ by_length 3 a b c d C1 phi /\ c < d /\
  len 3 (C1 (phi c)) <> len 3 (C1 (phi d)).
Proof. exact abscissa_case. Qed.
