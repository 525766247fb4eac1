(** A basis that together with the opposite of its sum has no acute angles. *)
From Coq Require Import QArith Qabs Lqa Qfield Permutation.
From Verif Require Import Base Array2Model QPoint CutModel CutSpec CutGeomProofs VolumeModel VolumeSpec MoveProofs SameSetProofs ZoneModel ZoneSpec ZoneBoxProofs ZoneProofs ZoneGrowProofs.
Local Open Scope Q_scope.

Lemma times (a b c : Q) : 0 <= a -> b <= c -> a * b <= a * c.
Proof. intros. nra. Qed.
Lemma sorted_int (x1 x2 x3 x4 p12 p13 p14 p23 p24 p34 n1 n2 n3 n4 : Q) :
  0 <= p12 -> 0 <= p13 -> 0 <= p14 -> 0 <= p23 -> 0 <= p24 -> 0 <= p34 -> x1 + x2 + x3 + x4 == 0 ->
  2 * x1 <= p12 + p13 + p14 -> 2 * (x1 + x2) <= p13 + p14 + p23 + p24 -> 2 * (x1 + x2 + x3) <= p14 + p24 + p34 ->
  n2 <= n1 -> n3 <= n2 -> n4 <= n3 ->
  n1 - n2 <= (n1 - n2) * (n1 - n2) -> n1 - n3 <= (n1 - n3) * (n1 - n3) -> n1 - n4 <= (n1 - n4) * (n1 - n4) ->
  n2 - n3 <= (n2 - n3) * (n2 - n3) -> n2 - n4 <= (n2 - n4) * (n2 - n4) -> n3 - n4 <= (n3 - n4) * (n3 - n4) ->
  2 * (n1 * x1 + n2 * x2 + n3 * x3 + n4 * x4) <=
    p12 * ((n1 - n2) * (n1 - n2)) + p13 * ((n1 - n3) * (n1 - n3)) + p14 * ((n1 - n4) * (n1 - n4)) +
    p23 * ((n2 - n3) * (n2 - n3)) + p24 * ((n2 - n4) * (n2 - n4)) + p34 * ((n3 - n4) * (n3 - n4)).
Proof.
  intros P12 P13 P14 P23 P24 P34 S X1 X2 X3 N1 N2 N3 A12 A13 A14 A23 A24 A34.
  apply (times _ _ _ P12) in A12. apply (times _ _ _ P13) in A13. apply (times _ _ _ P14) in A14. apply (times _ _ _ P23) in A23. apply (times _ _ _ P24) in A24. apply (times _ _ _ P34) in A34.
  assert (D1 : 0 <= n1 - n2) by lra. assert (D2 : 0 <= n2 - n3) by lra. assert (D3 : 0 <= n3 - n4) by lra.
  apply (times _ _ _ D1) in X1. apply (times _ _ _ D2) in X2. apply (times _ _ _ D3) in X3.
  assert (E : n4 * (x1 + x2 + x3 + x4) == 0) by (rewrite S; ring). lra.
Qed.
Ltac leaf H := let K := fresh in pose proof H as K; repeat (let X := fresh in lapply K; [clear K; intros K|clear K; lra]); lra.
Ltac leaf_any H m := let K := fresh in pose proof H as K; repeat (let X := fresh in lapply K; [clear K; intros K|clear K; lra]); specialize (K m); repeat (lapply K; [clear K; intros K|clear K; lra]); lra.
Lemma any_int (x1 x2 x3 x4 p12 p13 p14 p23 p24 p34 n1 n2 n3 n4 : Q) :
  0 <= p12 -> 0 <= p13 -> 0 <= p14 -> 0 <= p23 -> 0 <= p24 -> 0 <= p34 -> x1 + x2 + x3 + x4 == 0 ->
  2 * (x1) <= p12 + p13 + p14 -> 2 * (x2) <= p12 + p23 + p24 -> 2 * (x3) <= p13 + p23 + p34 -> 2 * (x4) <= p14 + p24 + p34 -> 2 * (x1 + x2) <= p13 + p14 + p23 + p24 -> 2 * (x1 + x3) <= p12 + p14 + p23 + p34 -> 2 * (x1 + x4) <= p12 + p13 + p24 + p34 ->
  2 * (x2 + x3) <= p12 + p24 + p13 + p34 -> 2 * (x2 + x4) <= p12 + p23 + p14 + p34 -> 2 * (x3 + x4) <= p13 + p23 + p14 + p24 -> 2 * (x1 + x2 + x3) <= p14 + p24 + p34 -> 2 * (x1 + x2 + x4) <= p13 + p23 + p34 -> 2 * (x1 + x3 + x4) <= p12 + p23 + p24 -> 2 * (x2 + x3 + x4) <= p12 + p13 + p14 ->
  n1 - n2 <= (n1 - n2) * (n1 - n2) -> n1 - n3 <= (n1 - n3) * (n1 - n3) -> n1 - n4 <= (n1 - n4) * (n1 - n4) -> n2 - n1 <= (n2 - n1) * (n2 - n1) -> n2 - n3 <= (n2 - n3) * (n2 - n3) -> n2 - n4 <= (n2 - n4) * (n2 - n4) ->
  n3 - n1 <= (n3 - n1) * (n3 - n1) -> n3 - n2 <= (n3 - n2) * (n3 - n2) -> n3 - n4 <= (n3 - n4) * (n3 - n4) -> n4 - n1 <= (n4 - n1) * (n4 - n1) -> n4 - n2 <= (n4 - n2) * (n4 - n2) -> n4 - n3 <= (n4 - n3) * (n4 - n3) ->
  2 * (n1 * x1 + n2 * x2 + n3 * x3 + n4 * x4) <=
    p12 * ((n1 - n2) * (n1 - n2)) + p13 * ((n1 - n3) * (n1 - n3)) + p14 * ((n1 - n4) * (n1 - n4)) +
    p23 * ((n2 - n3) * (n2 - n3)) + p24 * ((n2 - n4) * (n2 - n4)) + p34 * ((n3 - n4) * (n3 - n4)).
Proof.
  intros.
  destruct (Qlt_le_dec n2 n1).
  {
    destruct (Qlt_le_dec n3 n1).
    {
      destruct (Qlt_le_dec n3 n2).
      {
        destruct (Qlt_le_dec n4 n1).
        {
          destruct (Qlt_le_dec n4 n2).
          {
            destruct (Qlt_le_dec n4 n3).
            {
              { leaf (sorted_int x1 x2 x3 x4 p12 p13 p14 p23 p24 p34 n1 n2 n3 n4). }
            }
            {
              { leaf (sorted_int x1 x2 x4 x3 p12 p14 p13 p24 p23 p34 n1 n2 n4 n3). }
            }
          }
          {
            { leaf (sorted_int x1 x4 x2 x3 p14 p12 p13 p24 p34 p23 n1 n4 n2 n3). }
          }
        }
        {
          { leaf (sorted_int x4 x1 x2 x3 p14 p24 p34 p12 p13 p23 n4 n1 n2 n3). }
        }
      }
      {
        destruct (Qlt_le_dec n4 n1).
        {
          destruct (Qlt_le_dec n4 n3).
          {
            destruct (Qlt_le_dec n4 n2).
            {
              { leaf (sorted_int x1 x3 x2 x4 p13 p12 p14 p23 p34 p24 n1 n3 n2 n4). }
            }
            {
              { leaf (sorted_int x1 x3 x4 x2 p13 p14 p12 p34 p23 p24 n1 n3 n4 n2). }
            }
          }
          {
            { leaf (sorted_int x1 x4 x3 x2 p14 p13 p12 p34 p24 p23 n1 n4 n3 n2). }
          }
        }
        {
          { leaf (sorted_int x4 x1 x3 x2 p14 p34 p24 p13 p12 p23 n4 n1 n3 n2). }
        }
      }
    }
    {
      destruct (Qlt_le_dec n4 n3).
      {
        destruct (Qlt_le_dec n4 n1).
        {
          destruct (Qlt_le_dec n4 n2).
          {
            { leaf (sorted_int x3 x1 x2 x4 p13 p23 p34 p12 p14 p24 n3 n1 n2 n4). }
          }
          {
            { leaf (sorted_int x3 x1 x4 x2 p13 p34 p23 p14 p12 p24 n3 n1 n4 n2). }
          }
        }
        {
          { leaf (sorted_int x3 x4 x1 x2 p34 p13 p23 p14 p24 p12 n3 n4 n1 n2). }
        }
      }
      {
        { leaf (sorted_int x4 x3 x1 x2 p34 p14 p24 p13 p23 p12 n4 n3 n1 n2). }
      }
    }
  }
  {
    destruct (Qlt_le_dec n3 n2).
    {
      destruct (Qlt_le_dec n3 n1).
      {
        destruct (Qlt_le_dec n4 n2).
        {
          destruct (Qlt_le_dec n4 n1).
          {
            destruct (Qlt_le_dec n4 n3).
            {
              { leaf (sorted_int x2 x1 x3 x4 p12 p23 p24 p13 p14 p34 n2 n1 n3 n4). }
            }
            {
              { leaf (sorted_int x2 x1 x4 x3 p12 p24 p23 p14 p13 p34 n2 n1 n4 n3). }
            }
          }
          {
            { leaf (sorted_int x2 x4 x1 x3 p24 p12 p23 p14 p34 p13 n2 n4 n1 n3). }
          }
        }
        {
          { leaf (sorted_int x4 x2 x1 x3 p24 p14 p34 p12 p23 p13 n4 n2 n1 n3). }
        }
      }
      {
        destruct (Qlt_le_dec n4 n2).
        {
          destruct (Qlt_le_dec n4 n3).
          {
            destruct (Qlt_le_dec n4 n1).
            {
              { leaf (sorted_int x2 x3 x1 x4 p23 p12 p24 p13 p34 p14 n2 n3 n1 n4). }
            }
            {
              { leaf (sorted_int x2 x3 x4 x1 p23 p24 p12 p34 p13 p14 n2 n3 n4 n1). }
            }
          }
          {
            { leaf (sorted_int x2 x4 x3 x1 p24 p23 p12 p34 p14 p13 n2 n4 n3 n1). }
          }
        }
        {
          { leaf (sorted_int x4 x2 x3 x1 p24 p34 p14 p23 p12 p13 n4 n2 n3 n1). }
        }
      }
    }
    {
      destruct (Qlt_le_dec n4 n3).
      {
        destruct (Qlt_le_dec n4 n2).
        {
          destruct (Qlt_le_dec n4 n1).
          {
            { leaf (sorted_int x3 x2 x1 x4 p23 p13 p34 p12 p24 p14 n3 n2 n1 n4). }
          }
          {
            { leaf (sorted_int x3 x2 x4 x1 p23 p34 p13 p24 p12 p14 n3 n2 n4 n1). }
          }
        }
        {
          { leaf (sorted_int x3 x4 x2 x1 p34 p23 p13 p24 p14 p12 n3 n4 n2 n1). }
        }
      }
      {
        { leaf (sorted_int x4 x3 x2 x1 p34 p24 p14 p23 p13 p12 n4 n3 n2 n1). }
      }
    }
  }
Qed.
(** The same for any coefficients, with the products with the four vectors. *)
Lemma sorted_any (x1 x2 x3 x4 p12 p13 p14 p23 p24 p34 n1 n2 n3 n4 : Q) :
  0 <= p12 -> 0 <= p13 -> 0 <= p14 -> 0 <= p23 -> 0 <= p24 -> 0 <= p34 -> x1 + x2 + x3 + x4 == 0 ->
  2 * x1 <= p12 + p13 + p14 -> 2 * (x1 + x2) <= p13 + p14 + p23 + p24 -> 2 * (x1 + x2 + x3) <= p14 + p24 + p34 ->
  n2 <= n1 -> n3 <= n2 -> n4 <= n3 -> forall m,
  p12 * (n1 - n2) + p13 * (n1 - n3) + p14 * (n1 - n4) <= m ->
  p13 * (n1 - n3) + p14 * (n1 - n4) + p23 * (n2 - n3) + p24 * (n2 - n4) <= m ->
  p14 * (n1 - n4) + p24 * (n2 - n4) + p34 * (n3 - n4) <= m ->
  2 * (n1 * x1 + n2 * x2 + n3 * x3 + n4 * x4) <= 3 * m.
Proof.
  intros P12 P13 P14 P23 P24 P34 S X1 X2 X3 N1 N2 N3 m M1 M2 M3.
  assert (D1 : 0 <= n1 - n2) by lra. assert (D2 : 0 <= n2 - n3) by lra. assert (D3 : 0 <= n3 - n4) by lra.
  apply (times _ _ _ D1) in X1. apply (times _ _ _ D2) in X2. apply (times _ _ _ D3) in X3.
  assert (E : n4 * (x1 + x2 + x3 + x4) == 0) by (rewrite S; ring).
  pose proof (times _ _ _ P13 (ltac:(lra) : n1 - n2 <= n1 - n3)) as Q1. pose proof (times _ _ _ P14 (ltac:(lra) : n1 - n2 <= n1 - n4)) as Q2.
  pose proof (times _ _ _ P13 (ltac:(lra) : n2 - n3 <= n1 - n3)) as Q3. pose proof (times _ _ _ P14 (ltac:(lra) : n2 - n3 <= n1 - n4)) as Q4. pose proof (times _ _ _ P24 (ltac:(lra) : n2 - n3 <= n2 - n4)) as Q5.
  pose proof (times _ _ _ P14 (ltac:(lra) : n3 - n4 <= n1 - n4)) as Q6. pose proof (times _ _ _ P24 (ltac:(lra) : n3 - n4 <= n2 - n4)) as Q7. lra.
Qed.
Lemma any_any (x1 x2 x3 x4 p12 p13 p14 p23 p24 p34 n1 n2 n3 n4 m : Q) :
  0 <= p12 -> 0 <= p13 -> 0 <= p14 -> 0 <= p23 -> 0 <= p24 -> 0 <= p34 -> x1 + x2 + x3 + x4 == 0 ->
  2 * (x1) <= p12 + p13 + p14 -> 2 * (x2) <= p12 + p23 + p24 -> 2 * (x3) <= p13 + p23 + p34 -> 2 * (x4) <= p14 + p24 + p34 -> 2 * (x1 + x2) <= p13 + p14 + p23 + p24 -> 2 * (x1 + x3) <= p12 + p14 + p23 + p34 -> 2 * (x1 + x4) <= p12 + p13 + p24 + p34 ->
  2 * (x2 + x3) <= p12 + p24 + p13 + p34 -> 2 * (x2 + x4) <= p12 + p23 + p14 + p34 -> 2 * (x3 + x4) <= p13 + p23 + p14 + p24 -> 2 * (x1 + x2 + x3) <= p14 + p24 + p34 -> 2 * (x1 + x2 + x4) <= p13 + p23 + p34 -> 2 * (x1 + x3 + x4) <= p12 + p23 + p24 -> 2 * (x2 + x3 + x4) <= p12 + p13 + p14 ->
  p12 * (n1 - n2) + p13 * (n1 - n3) + p14 * (n1 - n4) <= m ->
  p12 * (n2 - n1) + p23 * (n2 - n3) + p24 * (n2 - n4) <= m ->
  p13 * (n3 - n1) + p23 * (n3 - n2) + p34 * (n3 - n4) <= m ->
  p14 * (n4 - n1) + p24 * (n4 - n2) + p34 * (n4 - n3) <= m ->
  p13 * (n1 - n3) + p14 * (n1 - n4) + p23 * (n2 - n3) + p24 * (n2 - n4) <= m ->
  p12 * (n1 - n2) + p14 * (n1 - n4) + p23 * (n3 - n2) + p34 * (n3 - n4) <= m ->
  p12 * (n1 - n2) + p13 * (n1 - n3) + p24 * (n4 - n2) + p34 * (n4 - n3) <= m ->
  p12 * (n2 - n1) + p24 * (n2 - n4) + p13 * (n3 - n1) + p34 * (n3 - n4) <= m ->
  p12 * (n2 - n1) + p23 * (n2 - n3) + p14 * (n4 - n1) + p34 * (n4 - n3) <= m ->
  p13 * (n3 - n1) + p23 * (n3 - n2) + p14 * (n4 - n1) + p24 * (n4 - n2) <= m ->
  p14 * (n1 - n4) + p24 * (n2 - n4) + p34 * (n3 - n4) <= m ->
  p13 * (n1 - n3) + p23 * (n2 - n3) + p34 * (n4 - n3) <= m ->
  p12 * (n1 - n2) + p23 * (n3 - n2) + p24 * (n4 - n2) <= m ->
  p12 * (n2 - n1) + p13 * (n3 - n1) + p14 * (n4 - n1) <= m ->
  2 * (n1 * x1 + n2 * x2 + n3 * x3 + n4 * x4) <= 3 * m.
Proof.
  intros.
  destruct (Qlt_le_dec n2 n1).
  {
    destruct (Qlt_le_dec n3 n1).
    {
      destruct (Qlt_le_dec n3 n2).
      {
        destruct (Qlt_le_dec n4 n1).
        {
          destruct (Qlt_le_dec n4 n2).
          {
            destruct (Qlt_le_dec n4 n3).
            {
              { leaf_any (sorted_any x1 x2 x3 x4 p12 p13 p14 p23 p24 p34 n1 n2 n3 n4) m. }
            }
            {
              { leaf_any (sorted_any x1 x2 x4 x3 p12 p14 p13 p24 p23 p34 n1 n2 n4 n3) m. }
            }
          }
          {
            { leaf_any (sorted_any x1 x4 x2 x3 p14 p12 p13 p24 p34 p23 n1 n4 n2 n3) m. }
          }
        }
        {
          { leaf_any (sorted_any x4 x1 x2 x3 p14 p24 p34 p12 p13 p23 n4 n1 n2 n3) m. }
        }
      }
      {
        destruct (Qlt_le_dec n4 n1).
        {
          destruct (Qlt_le_dec n4 n3).
          {
            destruct (Qlt_le_dec n4 n2).
            {
              { leaf_any (sorted_any x1 x3 x2 x4 p13 p12 p14 p23 p34 p24 n1 n3 n2 n4) m. }
            }
            {
              { leaf_any (sorted_any x1 x3 x4 x2 p13 p14 p12 p34 p23 p24 n1 n3 n4 n2) m. }
            }
          }
          {
            { leaf_any (sorted_any x1 x4 x3 x2 p14 p13 p12 p34 p24 p23 n1 n4 n3 n2) m. }
          }
        }
        {
          { leaf_any (sorted_any x4 x1 x3 x2 p14 p34 p24 p13 p12 p23 n4 n1 n3 n2) m. }
        }
      }
    }
    {
      destruct (Qlt_le_dec n4 n3).
      {
        destruct (Qlt_le_dec n4 n1).
        {
          destruct (Qlt_le_dec n4 n2).
          {
            { leaf_any (sorted_any x3 x1 x2 x4 p13 p23 p34 p12 p14 p24 n3 n1 n2 n4) m. }
          }
          {
            { leaf_any (sorted_any x3 x1 x4 x2 p13 p34 p23 p14 p12 p24 n3 n1 n4 n2) m. }
          }
        }
        {
          { leaf_any (sorted_any x3 x4 x1 x2 p34 p13 p23 p14 p24 p12 n3 n4 n1 n2) m. }
        }
      }
      {
        { leaf_any (sorted_any x4 x3 x1 x2 p34 p14 p24 p13 p23 p12 n4 n3 n1 n2) m. }
      }
    }
  }
  {
    destruct (Qlt_le_dec n3 n2).
    {
      destruct (Qlt_le_dec n3 n1).
      {
        destruct (Qlt_le_dec n4 n2).
        {
          destruct (Qlt_le_dec n4 n1).
          {
            destruct (Qlt_le_dec n4 n3).
            {
              { leaf_any (sorted_any x2 x1 x3 x4 p12 p23 p24 p13 p14 p34 n2 n1 n3 n4) m. }
            }
            {
              { leaf_any (sorted_any x2 x1 x4 x3 p12 p24 p23 p14 p13 p34 n2 n1 n4 n3) m. }
            }
          }
          {
            { leaf_any (sorted_any x2 x4 x1 x3 p24 p12 p23 p14 p34 p13 n2 n4 n1 n3) m. }
          }
        }
        {
          { leaf_any (sorted_any x4 x2 x1 x3 p24 p14 p34 p12 p23 p13 n4 n2 n1 n3) m. }
        }
      }
      {
        destruct (Qlt_le_dec n4 n2).
        {
          destruct (Qlt_le_dec n4 n3).
          {
            destruct (Qlt_le_dec n4 n1).
            {
              { leaf_any (sorted_any x2 x3 x1 x4 p23 p12 p24 p13 p34 p14 n2 n3 n1 n4) m. }
            }
            {
              { leaf_any (sorted_any x2 x3 x4 x1 p23 p24 p12 p34 p13 p14 n2 n3 n4 n1) m. }
            }
          }
          {
            { leaf_any (sorted_any x2 x4 x3 x1 p24 p23 p12 p34 p14 p13 n2 n4 n3 n1) m. }
          }
        }
        {
          { leaf_any (sorted_any x4 x2 x3 x1 p24 p34 p14 p23 p12 p13 n4 n2 n3 n1) m. }
        }
      }
    }
    {
      destruct (Qlt_le_dec n4 n3).
      {
        destruct (Qlt_le_dec n4 n2).
        {
          destruct (Qlt_le_dec n4 n1).
          {
            { leaf_any (sorted_any x3 x2 x1 x4 p23 p13 p34 p12 p24 p14 n3 n2 n1 n4) m. }
          }
          {
            { leaf_any (sorted_any x3 x2 x4 x1 p23 p34 p13 p24 p12 p14 n3 n2 n4 n1) m. }
          }
        }
        {
          { leaf_any (sorted_any x3 x4 x2 x1 p34 p23 p13 p24 p14 p12 n3 n4 n2 n1) m. }
        }
      }
      {
        { leaf_any (sorted_any x4 x3 x2 x1 p34 p24 p14 p23 p13 p12 n4 n3 n2 n1) m. }
      }
    }
  }
Qed.

Section Obtuse.
Variables u v w : q3.
Notation b := (u, v, w).
Notation D := (dot (cross u v) w).
Hypothesis Ind : ~ D == 0.
Hypothesis Ob : obtuse b.
Notation p12 := (- dot u v). Notation p13 := (- dot u w). Notation p23 := (- dot v w).
Notation p14 := (dot u u + dot u v + dot u w). Notation p24 := (dot u v + dot v v + dot v w). Notation p34 := (dot u w + dot v w + dot w w).
Lemma obtuse_signs : 0 <= p12 /\ 0 <= p13 /\ 0 <= p14 /\ 0 <= p23 /\ 0 <= p24 /\ 0 <= p34.
Proof. destruct Ob as (A & B & C & E & F & G). unfold dot in *; cbn [qx qy qz] in *. repeat split; lra. Qed.
Lemma point_dot i j k y : dot (lattice_point b i j k) y == inject_Z i * dot u y + inject_Z j * dot v y + inject_Z k * dot w y.
Proof. unfold lattice_point, dot; cbn [qx qy qz]. ring. Qed.
Lemma point_norm i j k : dot (lattice_point b i j k) (lattice_point b i j k) ==
  inject_Z i * inject_Z i * dot u u + inject_Z j * inject_Z j * dot v v + inject_Z k * inject_Z k * dot w w +
  2 * (inject_Z i * inject_Z j * dot u v + inject_Z i * inject_Z k * dot u w + inject_Z j * inject_Z k * dot v w).
Proof. unfold lattice_point, dot; cbn [qx qy qz]. ring. Qed.
Section Point.
Variable x : q3.
Hypothesis Near : nearest_of b 1 x.
Notation x1 := (dot u x). Notation x2 := (dot v x). Notation x3 := (dot w x).
Lemma near_one i j k : up_to 1 i j k -> 2 * (inject_Z i * x1 + inject_Z j * x2 + inject_Z k * x3) <=
  inject_Z i * inject_Z i * dot u u + inject_Z j * inject_Z j * dot v v + inject_Z k * inject_Z k * dot w w +
  2 * (inject_Z i * inject_Z j * dot u v + inject_Z i * inject_Z k * dot u w + inject_Z j * inject_Z k * dot v w).
Proof. intros U. pose proof (Near i j k U) as N. apply nearer in N. now rewrite point_dot, point_norm in N. Qed.
Ltac near i j k := let N := fresh in pose proof (near_one i j k ltac:(unfold up_to; lia)) as N; unfold inject_Z in N.
Lemma int_le z : inject_Z z <= inject_Z z * inject_Z z.
Proof. rewrite <- inject_Z_mult, <- Zle_Qle. nia. Qed.
Lemma int_diff z y : inject_Z z - inject_Z y <= (inject_Z z - inject_Z y) * (inject_Z z - inject_Z y).
Proof. pose proof (int_le (z - y)) as H. unfold Z.sub in H. rewrite inject_Z_plus, injopp in H. exact H. Qed.
Lemma obtuse_zone : first_zone b x.
Proof.
  intros i j k. apply nearer. rewrite point_dot, point_norm. destruct obtuse_signs as (A12 & A13 & A14 & A23 & A24 & A34).
  near 1%Z 0%Z 0%Z. near 0%Z 1%Z 0%Z. near 0%Z 0%Z 1%Z. near (-1)%Z (-1)%Z (-1)%Z. near 1%Z 1%Z 0%Z. near 1%Z 0%Z 1%Z. near 0%Z (-1)%Z (-1)%Z. near 0%Z 1%Z 1%Z. near (-1)%Z 0%Z (-1)%Z. near (-1)%Z (-1)%Z 0%Z. near 1%Z 1%Z 1%Z. near 0%Z 0%Z (-1)%Z. near 0%Z (-1)%Z 0%Z. near (-1)%Z 0%Z 0%Z.
  pose proof (any_int x1 x2 x3 (- (x1 + x2 + x3)) p12 p13 p14 p23 p24 p34 (inject_Z i) (inject_Z j) (inject_Z k) (inject_Z 0)) as K.
  repeat (lapply K; [clear K; intros K|clear K; first [apply int_diff|lra]]). change (inject_Z 0) with 0 in K. lra.
Qed.
(** How far the zone reaches in a direction. *)
Lemma obtuse_reach d : 2 * dot d x <= 3 * (Qabs (dot d u) + Qabs (dot d v) + Qabs (dot d w)).
Proof.
  destruct obtuse_signs as (A12 & A13 & A14 & A23 & A24 & A34).
  near 1%Z 0%Z 0%Z. near 0%Z 1%Z 0%Z. near 0%Z 0%Z 1%Z. near (-1)%Z (-1)%Z (-1)%Z. near 1%Z 1%Z 0%Z. near 1%Z 0%Z 1%Z. near 0%Z (-1)%Z (-1)%Z. near 0%Z 1%Z 1%Z. near (-1)%Z 0%Z (-1)%Z. near (-1)%Z (-1)%Z 0%Z. near 1%Z 1%Z 1%Z. near 0%Z 0%Z (-1)%Z. near 0%Z (-1)%Z 0%Z. near (-1)%Z 0%Z 0%Z.
  set (n1 := dot (cross v w) d / D). set (n2 := dot (cross w u) d / D). set (n3 := dot (cross u v) d / D).
  assert (Ed : forall y, dot d y == n1 * dot u y + n2 * dot v y + n3 * dot w y) by (intros y; unfold n1, n2, n3, dot, cross in *; cbn [qx qy qz] in *; field; exact Ind).
  assert (Ab : forall q, q <= Qabs q /\ - q <= Qabs q) by (intros q; apply Qabs_case; intros; split; lra).
  destruct (Ab (dot d u)) as [U1 U2]. destruct (Ab (dot d v)) as [V1 V2]. destruct (Ab (dot d w)) as [W1 W2]. set (m := Qabs (dot d u) + Qabs (dot d v) + Qabs (dot d w)).
  assert (Mp : dot d u + dot d v + dot d w <= m /\ dot d u + dot d v - dot d w <= m /\ dot d u - dot d v + dot d w <= m /\ dot d u - dot d v - dot d w <= m /\ - dot d u + dot d v + dot d w <= m /\ - dot d u + dot d v - dot d w <= m /\ - dot d u - dot d v + dot d w <= m /\ - dot d u - dot d v - dot d w <= m) by (unfold m; repeat split; lra). clearbody m.
  destruct Mp as (M1 & M2 & M3 & M4 & M5 & M6 & M7 & M8). rewrite (Ed x). rewrite (Ed u), (Ed v), (Ed w) in *. clear U1 U2 V1 V2 W1 W2 Ed Ab.
  assert (Sy : dot v u == dot u v /\ dot w u == dot u w /\ dot w v == dot v w) by (unfold dot; repeat split; ring). destruct Sy as (S1 & S2 & S3). rewrite S1, S2, S3 in *. clearbody n1 n2 n3.
  pose proof (any_any x1 x2 x3 (- (x1 + x2 + x3)) p12 p13 p14 p23 p24 p34 n1 n2 n3 0 m) as K.
  repeat (lapply K; [clear K; intros K|clear K; lra]). lra.
Qed.
End Point.
Lemma obtuse_wide e x : (2 <= e)%Z -> in_box b e x /\ nearest_of b e x <-> first_zone b x.
Proof.
  intros He. split; [intros [_ N]; apply obtuse_zone; intros i j k U; apply N; unfold up_to in *; lia|]. intros F. split; [|intros i j k _; apply F].
  assert (N : nearest_of b 1 x) by (intros i j k _; apply F).
  assert (R : forall d, 2 * dot d x <= 3 * (Qabs (dot d u) + Qabs (dot d v) + Qabs (dot d w))) by now apply obtuse_reach.
  assert (Co : forall c, coordinate c -> exists d, forall y, c y == dot d y).
  { intros c [<-|[<-|[<-|[]]]]; [exists (Q3 1 0 0)|exists (Q3 0 1 0)|exists (Q3 0 0 1)]; intros y; unfold dot; cbn [qx qy qz]; ring. }
  assert (Sg : forall q, exists n, (- (1) <= n <= 1)%Z /\ inject_Z n * q == Qabs q) by (intros q; destruct (Qlt_le_dec q 0) as [L|L]; [exists (-1)%Z|exists 1%Z]; (split; [lia|]); [rewrite Qabs_neg by lra|rewrite Qabs_pos by lra]; unfold inject_Z; ring).
  intros c Hc. destruct (Co c Hc) as (d & Ed). destruct (Sg (dot d u)) as (i & Li & Ei). destruct (Sg (dot d v)) as (j & Lj & Ej). destruct (Sg (dot d w)) as (k & Lk & Ek).
  assert (Cp : c (lattice_point b (2 * i) (2 * j) (2 * k)) == 2 * (Qabs (dot d u) + Qabs (dot d v) + Qabs (dot d w))).
  { rewrite Ed. assert (X : dot d (lattice_point b (2 * i) (2 * j) (2 * k)) == 2 * (inject_Z i * dot d u + inject_Z j * dot d v + inject_Z k * dot d w)) by (unfold lattice_point, dot; cbn [qx qy qz]; rewrite !inject_Z_mult; unfold inject_Z at 1 3 5 7 9 11 13 15 17; ring). rewrite X, Ei, Ej, Ek. reflexivity. }
  pose proof (Qabs_nonneg (dot d u)). pose proof (Qabs_nonneg (dot d v)). pose proof (Qabs_nonneg (dot d w)).
  pose proof (R d) as R1. pose proof (R (Q3 (- qx d) (- qy d) (- qz d))) as R2. assert (On : forall y, dot (Q3 (- qx d) (- qy d) (- qz d)) y == - dot d y) by (intros y; unfold dot; cbn [qx qy qz]; ring). rewrite !On, !Qabs_opp in R2. pose proof (Ed x) as Ex.
  split; [exists (- (2 * i))%Z, (- (2 * j))%Z, (- (2 * k))%Z|exists (2 * i)%Z, (2 * j)%Z, (2 * k)%Z]; (split; [unfold up_to; lia|]); [rewrite (opposite_point b _ _ _ c Hc)|]; rewrite Cp; lra.
Qed.
End Obtuse.
