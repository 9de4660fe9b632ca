(** * Model of include/PapillonNDL/xs_packet.hpp *)
From Verif Require Import Base.
Local Open Scope num_scope.

Section Packet.
  Context {T : Type} {N : Num T}.
  (** xs_packet.hpp 36-43 *)
  Record packet := mkPkt { total : T; elastic : T; inelastic : T; absorption : T; fission : T; capture : T; heating : T }.

  (** 45-54 (operator+=) and 83-93 (operator+) *)
  Definition padd (p q : packet) : packet :=
    mkPkt (total p +~ total q) (elastic p +~ elastic q) (inelastic p +~ inelastic q) (absorption p +~ absorption q)
          (fission p +~ fission q) (capture p +~ capture q) (heating p +~ heating q).
  (** 56-65 and 95-105 *)
  Definition psub (p q : packet) : packet :=
    mkPkt (total p -~ total q) (elastic p -~ elastic q) (inelastic p -~ inelastic q) (absorption p -~ absorption q)
          (fission p -~ fission q) (capture p -~ capture q) (heating p -~ heating q).
  (** 67-76, 107-117 and 139-141 *)
  Definition pscale (p : packet) (C : T) : packet :=
    mkPkt (total p *~ C) (elastic p *~ C) (inelastic p *~ C) (absorption p *~ C)
          (fission p *~ C) (capture p *~ C) (heating p *~ C).
  (** 78-81 and 119-122 *)
  Definition pdiv (p : packet) (C : T) : packet := let D := #1 /~ C in pscale p D.
  (** 124 *)
  Definition ppos (p : packet) : packet := p.
  (** 126-136; line 132 negates [absorption] into [fission] *)
  Definition pneg (p : packet) : packet :=
    mkPkt (-~ total p) (-~ elastic p) (-~ inelastic p) (-~ absorption p)
          (-~ absorption p) (-~ capture p) (-~ heating p).
End Packet.
Arguments packet : clear implicits.
