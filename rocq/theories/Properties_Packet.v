(** * C35: XSPacket arithmetic *)
From Verif Require Import Base NumR NumF M_Packet L_Packet.
Local Open Scope R_scope.

(** [+], [-], [*], [/] obey the vector-space laws (over exact arithmetic). *)
Theorem C35_vector_space_laws_partial : forall (p q r : packet R) (c d : R),
  padd p q = padd q p /\ padd (padd p q) r = padd p (padd q r) /\ padd p pzero = p /\
  psub (padd p q) q = p /\ psub p p = pzero /\
  pscale (padd p q) c = padd (pscale p c) (pscale q c) /\
  pscale p (c + d) = padd (pscale p c) (pscale p d) /\
  pscale (pscale p c) d = pscale p (c * d) /\ pscale p 1 = p /\
  (c <> 0 -> pscale (pdiv p c) c = p) /\ (c <> 0 -> pdiv p c = pscale p (/ c)).
Proof. exact packet_laws. Qed.
Print Assumptions C35_vector_space_laws_partial.

(** Each of the seven components is acted on separately. *)
Theorem C35_component_by_component_partial : forall (f : packet R -> R),
  In f [@total R; @elastic R; @inelastic R; @absorption R; @fission R; @capture R; @heating R] ->
  forall p q c, f (padd p q) = f p + f q /\ f (psub p q) = f p - f q /\ f (pscale p c) = f p * c /\
                (c <> 0 -> f (pdiv p c) = f p / c).
Proof. exact packet_components. Qed.
Print Assumptions C35_component_by_component_partial.

(** Unary minus negates every component but fission ... *)
Theorem C35_unary_minus_partial : forall f : packet R -> R,
  In f [@total R; @elastic R; @inelastic R; @absorption R; @capture R; @heating R] -> forall p, f (pneg p) = - f p.
Proof. exact packet_neg_others. Qed.
Print Assumptions C35_unary_minus_partial.

(** ... so [p + (-p) = 0] exactly for packets whose fission equals their absorption, *)
Theorem C35_unary_minus_exact_domain : forall p : packet R, padd p (pneg p) = pzero <-> fission p = absorption p.
Proof. exact packet_neg. Qed.
Print Assumptions C35_unary_minus_exact_domain.

(** ... and fails for an ordinary fissile packet (total 10, absorption 4, fission 3). *)
Theorem C35_unary_minus_refuted :
  fission (pneg (mkPkt 10 5 1 4 3 1 0)) = -4 /\ padd (mkPkt 10 5 1 4 3 1 0) (pneg (mkPkt 10 5 1 4 3 1 0)) <> pzero.
Proof. exact packet_neg_wrong. Qed.
Print Assumptions C35_unary_minus_refuted.

(** The hypotheses are met by concrete packets. *)
Example C35_laws_nonvacuous : pscale (pdiv (mkPkt 10 5 1 4 3 1 2) 4) 4 = mkPkt 10 5 1 4 3 1 2.
Proof. assert (H : (4:R) <> 0) by lra. exact (proj1 (proj2 (proj2 (proj2 (proj2 (proj2 (proj2 (proj2 (proj2 (proj2
  (packet_laws (mkPkt 10 5 1 4 3 1 2) (mkPkt 10 5 1 4 3 1 2) (mkPkt 10 5 1 4 3 1 2) 4 4)))))))))) H). Qed.
