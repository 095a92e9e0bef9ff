(** C83: surfaces joined, split and extended. *)
From Coq Require Import List Arith ZArith Reals Lra.
From Verif Require Import Model_Base Model_Curve Model_Knots Model_Interp Model_Surface Model_Elevate Model_Connect Model_Stools
  Spec_Base Spec_Basis Spec_Knots Spec_Interp Spec_Solve Spec_Elevate Spec_Connect Spec_Stools
  Proof_Elevate6 Proof_Gauss Proof_PropConnect Proof_Stools6 Proof_PropStools.
Import ListNotations.
Local Open Scope R_scope.

(** Two surfaces with the same knots in v, the first ending in u where the second starts: one surface, on
    the interval of the first followed by that of the second, whose points and derivatives are theirs. *)
Theorem C83_join : forall eps dim s1 s2, 0 < eps -> clamped_surface eps s1 -> clamped_surface eps s2 -> s_kv s1 = s_kv s2 ->
  (1 <= Nat.max (s_degU s1) (s_degU s2))%nat -> countable (length (s_ku s1) + length (s_ku s2)) (length (s_kv s1)) ->
  meet_along eps dim s1 s2 ->
  let L := s_u2 s1 - s_u1 s2 in
  exists s, @surf_join R (NumR eps) s1 s2 = Ok s /\ clamped_surface eps s /\
    s_degU s = Nat.max (s_degU s1) (s_degU s2) /\ s_degV s = s_degV s1 /\ s_kv s = s_kv s1 /\
    s_u1 s = s_u1 s1 /\ s_u2 s = s_u2 s2 + L /\
    (forall u v du dv, s_v1 s1 <= v <= s_v2 s1 -> s_u1 s1 <= u < s_u2 s1 \/ u = s_u2 s1 /\ du = 0%nat -> same_at eps dim s1 u v s u v du dv) /\
    (forall u v du dv, s_v1 s1 <= v <= s_v2 s1 -> s_u1 s2 <= u <= s_u2 s2 -> same_at eps dim s2 u v s (u + L) v du dv).
Proof. exact join_final. Qed.
Print Assumptions C83_join.
Example C83_join_applies : 0 < 1 / 10 /\ clamped_surface (1 / 10) lit_surf /\ clamped_surface (1 / 10) lit_next /\ s_kv lit_surf = s_kv lit_next /\
  (1 <= Nat.max (s_degU lit_surf) (s_degU lit_next))%nat /\
  countable (length (s_ku lit_surf) + length (s_ku lit_next)) (length (s_kv lit_surf)) /\ meet_along (1 / 10) 2 lit_surf lit_next.
Proof. exact (conj lit_tenth lit_pair). Qed.

(** Surfaces with different numbers of knots in v are refused. *)
Theorem C83_join_refuses : forall eps s1 s2, 0 < eps -> clamped_surface eps s1 -> clamped_surface eps s2 -> length (s_kv s1) <> length (s_kv s2) ->
  countable (length (s_ku s1) + length (s_ku s2)) (length (s_kv s1) + length (s_kv s2)) ->
  @surf_join R (NumR eps) s1 s2 = Throw RuntimeError.
Proof. exact refuses_final. Qed.
Print Assumptions C83_join_refuses.
Example C83_refuses_applies : 0 < 1 / 10 /\ clamped_surface (1 / 10) lit_surf /\ clamped_surface (1 / 10) lit_turned /\ length (s_kv lit_surf) <> length (s_kv lit_turned) /\
  countable (length (s_ku lit_surf) + length (s_ku lit_turned)) (length (s_kv lit_surf) + length (s_kv lit_turned)).
Proof. exact lit_other. Qed.

(** A surface cut at u: two surfaces with the same parameters, points and derivatives. *)
Theorem C83_split_u : forall eps s u, 0 < eps -> clamped_surface eps s -> (1 <= s_degU s)%nat -> s_u1 s < u < s_u2 s ->
  exists a b, @split_u R (NumR eps) s u = Ok (a, b) /\
    s_u1 a = s_u1 s /\ s_u2 a = u /\ s_u1 b = u /\ s_u2 b = s_u2 s /\
    s_kv a = s_kv s /\ s_kv b = s_kv s /\ s_v1 a = s_v1 s /\ s_v2 a = s_v2 s /\ s_v1 b = s_v1 s /\ s_v2 b = s_v2 s /\
    s_degU a = s_degU s /\ s_degU b = s_degU s /\ s_degV a = s_degV s /\ s_degV b = s_degV s /\
    forall dim x v du dv, s_v1 s <= v <= s_v2 s ->
      (s_u1 s <= x < u \/ x = u /\ du = 0%nat -> same_at eps dim s x v a x v du dv) /\
      (u <= x < s_u2 s \/ x = s_u2 s /\ du = 0%nat -> same_at eps dim s x v b x v du dv).
Proof. exact split_u_final. Qed.
Print Assumptions C83_split_u.
Example C83_split_u_applies : 0 < 1 / 10 /\ clamped_surface (1 / 10) lit_surf /\ (1 <= s_degU lit_surf)%nat /\ s_u1 lit_surf < 1 < s_u2 lit_surf.
Proof. exact lit_cut_u. Qed.

(** A surface cut at v.  The bounds of the parts may be less than eps beyond the cut when it is
    closer than that to an end. *)
Theorem C83_split_v : forall eps s v0, 0 < eps -> clamped_surface eps s -> (1 <= s_degV s)%nat -> s_v1 s < v0 < s_v2 s ->
  exists a b, @split_v R (NumR eps) s v0 = Ok (a, b) /\
    s_v1 s - eps < s_v1 a <= s_v1 s /\ v0 <= s_v2 a < v0 + eps /\ v0 - eps < s_v1 b <= v0 /\ s_v2 s <= s_v2 b < s_v2 s + eps /\
    (eps <= s_v2 s - v0 -> s_v2 a = v0) /\ (eps <= v0 - s_v1 s -> s_v1 b = v0) /\
    s_ku a = s_ku s /\ s_ku b = s_ku s /\ s_u1 a = s_u1 s /\ s_u2 a = s_u2 s /\ s_u1 b = s_u1 s /\ s_u2 b = s_u2 s /\
    s_degU a = s_degU s /\ s_degU b = s_degU s /\ s_degV a = s_degV s /\ s_degV b = s_degV s /\
    forall dim u x du dv, s_u1 s <= u <= s_u2 s ->
      (s_v1 s <= x < v0 \/ x = v0 /\ dv = 0%nat -> same_at eps dim s u x a u x du dv) /\
      (v0 <= x < s_v2 s \/ x = s_v2 s /\ dv = 0%nat -> same_at eps dim s u x b u x du dv).
Proof. exact split_v_final. Qed.
Print Assumptions C83_split_v.
Example C83_split_v_applies : 0 < 1 / 10 /\ clamped_surface (1 / 10) lit_surf /\ (1 <= s_degV lit_surf)%nat /\ s_v1 lit_surf < 1 / 2 < s_v2 lit_surf.
Proof. exact lit_cut_v. Qed.

(** The piece between the end of a surface and a curve on its knots in v: it starts on the surface with
    its derivatives up to the continuity asked, ends on the curve, and is as long in the parameter
    as the mean of distance / speed. *)
Theorem C83_extention : forall eps lu norm dim np s c L (natural : bool) mc, 0 < eps ->
  complete_solver lu -> clamped_surface eps s -> (1 <= s_degU s)%nat -> along_v s c -> (2 <= np)%nat -> mean_length eps norm s c np L ->
  eps * INR (s_degU s) < L -> countable (length (s_ku s)) (length (s_kv s)) ->
  exists e, @extention_to_curve R (NumR eps) lu norm dim np s c natural mc = Ok e /\ clamped_surface eps e /\ (1 <= s_degU e <= s_degU s)%nat /\
    s_kv e = s_kv s /\ s_degV e = s_degV s /\ s_u1 e = s_u2 s /\ s_u2 e = s_u2 s + L /\ s_v1 e = s_v1 s /\ s_v2 e = s_v2 s /\
    (forall v du dv, s_v1 s <= v <= s_v2 s -> (du <= continuity (s_degU s) mc)%nat -> same_at eps dim s (s_u2 s) v e (s_u1 e) v du dv) /\
    edge_is eps dim e (s_u2 e) c /\
    (natural = true -> (2 < s_degU s)%nat -> edge_zero eps dim e (s_u2 e) 2).
Proof. exact extention_final. Qed.
Print Assumptions C83_extention.

(** A curve with fewer poles than the surface has rows is read beyond its end, although it may well have points at
    all the parameters of the edge. *)
Theorem C83_short_curve_refuted : forall eps lu norm dim np s c L (natural : bool) mc, 0 < eps ->
  complete_solver lu -> clamped_surface eps s -> (1 <= s_degU s)%nat -> (length (c_poles c) + s_degV s + 1 < length (s_kv s))%nat ->
  (2 <= np)%nat -> mean_length eps norm s c np L -> eps * INR (s_degU s) < L ->
  @extention_to_curve R (NumR eps) lu norm dim np s c natural mc = Undef BadIndex.
Proof. exact short_final. Qed.
Print Assumptions C83_short_curve_refuted.
Example C83_short_applies : (length (c_poles lit_short) + s_degV lit_surf + 1 < length (s_kv lit_surf))%nat /\ exists L,
  mean_length (1 / 10) norm_2 lit_surf lit_short 2 L /\ 1 / 10 * INR (s_degU lit_surf) < L.
Proof. exact lit_short_ok. Qed.

(** The surface extended to a curve: the old part is kept, the new end is the curve. *)
Theorem C83_extended_to_curve : forall eps lu norm dim np s c L (natural : bool) mc, 0 < eps ->
  complete_solver lu -> clamped_surface eps s -> (1 <= s_degU s)%nat -> along_v s c -> (2 <= np)%nat -> mean_length eps norm s c np L ->
  eps * INR (s_degU s) < L -> countable (3 * length (s_ku s)) (length (s_kv s)) ->
  exists r, @extended_to_curve R (NumR eps) lu norm dim np s c natural mc = Ok r /\ clamped_surface eps r /\ s_degU r = s_degU s /\
    s_kv r = s_kv s /\ s_degV r = s_degV s /\ s_u1 r = s_u1 s /\ s_u2 r = s_u2 s + L /\ s_v1 r = s_v1 s /\ s_v2 r = s_v2 s /\
    (forall u v du dv, s_v1 s <= v <= s_v2 s -> s_u1 s <= u < s_u2 s \/ u = s_u2 s /\ (du <= continuity (s_degU s) mc)%nat ->
       same_at eps dim s u v r u v du dv) /\
    edge_is eps dim r (s_u2 r) c /\
    (natural = true -> (2 < s_degU s)%nat -> edge_zero eps dim r (s_u2 r) 2).
Proof. exact extended_to_curve_final. Qed.
Print Assumptions C83_extended_to_curve.

(** The surface extended by a length l: the old part is kept and the ends of the new edge are at
    a distance l along the tangents.  c is the curve of least squares the code builds. *)
Theorem C83_extended_length : forall eps lu ldlt norm dim np s l c L (natural : bool) mc, 0 < eps ->
  complete_solver lu -> exact_solver ldlt -> clamped_surface eps s -> (1 <= s_degU s)%nat -> (1 <= s_degV s)%nat -> (2 <= np)%nat ->
  @offset_curve R (NumR eps) ldlt norm dim s l = Ok c -> mean_length eps norm s c np L ->
  eps * INR (s_degU s) < L -> countable (3 * length (s_ku s)) (length (s_kv s)) ->
  exists r, @surf_extended R (NumR eps) lu ldlt norm dim np s l natural mc = Ok r /\ clamped_surface eps r /\ s_degU r = s_degU s /\
    s_kv r = s_kv s /\ s_degV r = s_degV s /\ s_u1 r = s_u1 s /\ s_u2 r = s_u2 s + L /\ s_v1 r = s_v1 s /\ s_v2 r = s_v2 s /\
    (forall u v du dv, s_v1 s <= v <= s_v2 s -> s_u1 s <= u < s_u2 s \/ u = s_u2 s /\ (du <= continuity (s_degU s) mc)%nat ->
       same_at eps dim s u v r u v du dv) /\
    edge_is eps dim r (s_u2 r) c /\
    (natural = true -> (2 < s_degU s)%nat -> edge_zero eps dim r (s_u2 r) 2) /\
    forall v, v = s_v1 s \/ v = s_v2 s -> exists a t z,
      @surf_value R (NumR eps) s (s_u2 s) v 0 0 = Ok a /\ @surf_value R (NumR eps) s (s_u2 s) v 1 0 = Ok t /\ norm t <> 0 /\
      @surf_value R (NumR eps) r (s_u2 r) v 0 0 = Ok z /\ forall i, (i < dim)%nat -> z i = a i + l * (t i / norm t).
Proof. exact extended_length_final. Qed.
Print Assumptions C83_extended_length.
Example C83_extended_applies : 0 < 1 / 10 /\ clamped_surface (1 / 10) lit_surf /\
  complete_solver gauss /\ exact_solver gauss /\ (1 <= s_degU lit_surf)%nat /\ (1 <= s_degV lit_surf)%nat /\
  exists c, @offset_curve R (NumR (1 / 10)) gauss norm_2 2 lit_surf (sqrt 8) = Ok c /\ along_v lit_surf c /\
    mean_length (1 / 10) norm_2 lit_surf c 2 1 /\ 1 / 10 * INR (s_degU lit_surf) < 1 /\
    countable (3 * length (s_ku lit_surf)) (3 * length (s_kv lit_surf)).
Proof. exact (conj lit_tenth (conj lit_surf_clamped lit_offset)). Qed.

(** The same at any of the four sides.  At the start sides the parameters are not reset: the old point
    (u, v) is found at u + L, or v + L. *)
Theorem C83_extended_sides : forall eps lu ldlt norm dim np s s' l c L location (natural : bool) mc, 0 < eps ->
  complete_solver lu -> exact_solver ldlt -> clamped_surface eps s -> (1 <= s_degU s)%nat -> (1 <= s_degV s)%nat -> (2 <= np)%nat ->
  turned eps location s s' -> @offset_curve R (NumR eps) ldlt norm dim s' l = Ok c -> mean_length eps norm s' c np L ->
  eps * INR (s_degU s') < L -> countable (3 * length (s_ku s)) (3 * length (s_kv s)) ->
  exists r, @surf_extended_at R (NumR eps) lu ldlt norm dim np s l location natural mc = Ok r /\ clamped_surface eps r /\
    (s_u1 r, s_u2 r, (s_v1 r, s_v2 r)) = new_bounds location s L /\
    (forall u v, s_u1 s <= u <= s_u2 s -> s_v1 s <= v <= s_v2 s ->
       same_at eps dim s u v r (fst (place location L u v)) (snd (place location L u v)) 0 0) /\
    (forall t, fst (side_range location s) <= t <= snd (side_range location s) ->
       exists z z', @surf_value R (NumR eps) r (fst (new_side location s L t)) (snd (new_side location s L t)) 0 0 = Ok z /\
         @value R (NumR eps) c t 0 = Ok z' /\ forall i, (i < dim)%nat -> z i = z' i).
Proof. exact extended_sides_final. Qed.
Print Assumptions C83_extended_sides.
Example C83_sides_applies : exists s' c L, turned (1 / 10) UStart lit_surf s' /\ @offset_curve R (NumR (1 / 10)) gauss norm_2 2 s' 10 = Ok c /\
    mean_length (1 / 10) norm_2 s' c 2 L /\ 1 / 10 * INR (s_degU s') < L.
Proof. exact lit_offset_start. Qed.
