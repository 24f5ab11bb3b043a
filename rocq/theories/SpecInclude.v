(** Vocabulary for including headers. *)
From Coq Require Import Bool String List.
From Verif Require Import ModelInclude.
Import ListNotations.
Open Scope string_scope.

(** The headers a client includes. *)
Definition Public (p : path) : Prop :=
  In p [ ["shiva"; "ShivaConfig.hpp"];
         ["shiva"; "common"; "ShivaMacros.hpp"]; ["shiva"; "common"; "ShivaErrorHandling.hpp"]; ["shiva"; "common"; "types.hpp"];
         ["shiva"; "common"; "CArrayHelper.hpp"]; ["shiva"; "common"; "CArray.hpp"]; ["shiva"; "common"; "LinearIndex.hpp"];
         ["shiva"; "common"; "MultiIndex.hpp"]; ["shiva"; "common"; "IndexTypes.hpp"]; ["shiva"; "common"; "SequenceUtilities.hpp"];
         ["shiva"; "common"; "NestedSequenceUtilities.hpp"]; ["shiva"; "common"; "MathUtilities.hpp"]; ["shiva"; "common"; "pmpl.hpp"];
         ["shiva"; "functions"; "bases"; "BasisProduct.hpp"]; ["shiva"; "functions"; "bases"; "LagrangeBasis.hpp"];
         ["shiva"; "functions"; "spacing"; "Spacing.hpp"]; ["shiva"; "functions"; "quadrature"; "Quadrature.hpp"];
         ["shiva"; "geometry"; "shapes"; "NCube.hpp"]; ["shiva"; "geometry"; "shapes"; "NSimplex.hpp"];
         ["shiva"; "geometry"; "shapes"; "InterpolatedShape.hpp"]; ["shiva"; "geometry"; "mapping"; "LinearTransform.hpp"];
         ["shiva"; "geometry"; "mapping"; "Scaling.hpp"]; ["shiva"; "geometry"; "mapping"; "UniformScaling.hpp"];
         ["shiva"; "geometry"; "mapping"; "JacobianTransforms.hpp"];
         ["shiva"; "discretizations"; "finiteElementMethod"; "parentElements"; "ParentElement.hpp"] ].
(** The client's directories have no subdirectory "shiva". *)
Definition NoShiva (client : nat -> path -> option header) : Prop := forall n p, client n ("shiva" :: p) = None.
(** Where the header [p] is found. *)
Definition home (i : interface) (p : path) : location :=
  match i with
  | Installed => (Prefix, p)
  | FromBuildTree => if path_eqb p ["shiva"; "ShivaConfig.hpp"] then (Generated, p) else (Sources, p)
  end.
(** [x] includes [y], directly or through other headers. *)
Inductive Needs (t : tree) (dirs : list root) : location -> location -> Prop :=
| needs_self x : Needs t dirs x x
| needs_include x h p y z : t x = Some h -> In p (includes h) -> resolve t dirs x p = Some y -> Needs t dirs y z -> Needs t dirs x z.
(** Every name used in a file has been declared in it or in a file pasted before. *)
Definition NamesKnown (t : tree) (out : list location) : Prop :=
  forall o1 x o2 h n, out = (o1 ++ x :: o2)%list -> t x = Some h -> In n (uses h) ->
    In n (declares h) \/ exists y hy, In y o1 /\ t y = Some hy /\ In n (declares hy).
