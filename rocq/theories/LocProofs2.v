(** Proofs about the inside test of boxes and halls. *)
From Coq Require Import Ascii String Reals List ZArith Bool Arith Lia Lra.
From Verif Require Import Prelude TreeModel VecModel GeomModel GeomSpec GeomProofs1 TriModel PolyModel PolySpec SolidModel SolidSpec CrossSpec InsideSpec InsideProofs2 InsideProofs3 RoomSpec PlanSpec PlanProofs4 PlanProofs5
  WindSpec LoopSpec ShellSpec ShellProofs7 ShellProofs8 HallSpec HallProofs2 LocSpec.
Import ListNotations.
Local Open Scope R_scope.

Lemma room_test r ws q : built r ws -> clear_view r ws q -> exists b, solid_point_inside (map fst (all_polys ws)) q = Ok b /\ (b = true <-> occupies r q).
Proof.
  destruct r as [x y z mv|plan h t phi]; cbn [built clear_view].
  - intros (F & name & Vn & B) [O|(I & bs & S)].
    + exists false. split; [exact (box_others x y z mv F name ws q Vn B O)|]. split; [discriminate|]. cbn [occupies]. lra.
    + exists true. split; [|tauto]. destruct I as (I1 & I2 & I3). exact (box_points x y z mv F name ws q bs Vn B S I1 I2 I3).
  - intros (Hh & Sm & Ok' & tr & name & names & fn & cn & rf & rc & Mv & H) [O|(Z & On & Of & bs & S)].
    + exists false. split; [exact (plan_points_out plan h tr phi name names fn cn rf rc ws t H Mv Hh q O)|]. split; [discriminate|]. cbn [occupies]. lra.
    + eexists. split; [exact (plan_points_in plan h tr phi name names fn cn rf rc ws t H Mv Sm Hh (V 1 0 0) q bs Ok' S Of turn_two Z On)|].
      rewrite negb_true_iff, Z.eqb_neq. cbn [occupies]. tauto.
Qed.
