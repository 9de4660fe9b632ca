From Verif Require Import Base NumR NumF M_Packet.
Local Open Scope R_scope.

Ltac pk := intros; repeat match goal with p : packet R |- _ => destruct p end;
  unfold pdiv; unfold padd, psub, pscale, pneg, ppos; cbn [total elastic inelastic absorption fission capture heating]; rnum.
Definition pzero : packet R := mkPkt 0 0 0 0 0 0 0.
Definition psame (p q : packet R) := p = q.

Lemma mk_ext : forall a b c d e f g a2 b2 c2 d2 e2 f2 g2 : R, a = a2 -> b = b2 -> c = c2 -> d = d2 -> e = e2 -> f = f2 -> g = g2 ->
  mkPkt a b c d e f g = mkPkt a2 b2 c2 d2 e2 f2 g2.
Proof. intros; subst; reflexivity. Qed.
Lemma packet_laws : forall (p q r : packet R) (c d : R),
  padd p q = padd q p /\ padd (padd p q) r = padd p (padd q r) /\ padd p pzero = p /\
  psub (padd p q) q = p /\ psub p p = pzero /\
  pscale (padd p q) c = padd (pscale p c) (pscale q c) /\
  pscale p (c + d) = padd (pscale p c) (pscale p d) /\
  pscale (pscale p c) d = pscale p (c * d) /\ pscale p 1 = p /\
  (c <> 0 -> pscale (pdiv p c) c = p) /\ (c <> 0 -> pdiv p c = pscale p (/ c)).
Proof.
  pk. unfold pzero. repeat apply conj; intros; apply mk_ext; cbn [M_Packet.total M_Packet.elastic M_Packet.inelastic M_Packet.absorption M_Packet.fission M_Packet.capture M_Packet.heating]; first [ring | field; assumption].
Qed.
Lemma packet_components : forall (f : packet R -> R),
  In f [@total R; @elastic R; @inelastic R; @absorption R; @fission R; @capture R; @heating R] ->
  forall p q c, f (padd p q) = f p + f q /\ f (psub p q) = f p - f q /\ f (pscale p c) = f p * c /\
                (c <> 0 -> f (pdiv p c) = f p / c).
Proof.
  intros f Hf p q c. cbn in Hf.
  repeat destruct Hf as [<-|Hf]; try destruct Hf; pk; repeat split; intros; field; assumption.
Qed.
(** unary minus is correct exactly when fission = absorption *)
Lemma packet_neg : forall p : packet R, padd p (pneg p) = pzero <-> fission p = absorption p.
Proof.
  pk. unfold pzero. split; intros H.
  - injection H as _ _ _ _ H _ _. lra.
  - subst. f_equal; ring.
Qed.
Lemma packet_neg_others : forall f : packet R -> R,
  In f [@total R; @elastic R; @inelastic R; @absorption R; @capture R; @heating R] -> forall p, f (pneg p) = - f p.
Proof. intros f Hf p. cbn in Hf. repeat destruct Hf as [<-|Hf]; try destruct Hf; pk; reflexivity. Qed.
Lemma packet_neg_wrong : fission (pneg (mkPkt 10 5 1 4 3 1 0)) = -4 /\ padd (mkPkt 10 5 1 4 3 1 0) (pneg (mkPkt 10 5 1 4 3 1 0)) <> pzero.
Proof.
  split; [cbn; lra|]. unfold padd, pneg, pzero. cbn. intros H. injection H. intros. lra.
Qed.
