(** Including Shiva's headers: the quoted #include directives of /repo/include/shiva, the include
    directories of the CMake target (/repo/CMakeLists.txt lines 44-47), the installed files (lines
    104-108), and the part of the C++ preprocessor that pastes files.

    Simplifications.  A location is a root directory and a path below it; the roots do not lie
    inside one another and there are no links, so locations differ exactly if files do.  The
    quoted directives come before everything else and are unconditional, as is the case in every
    header.  System headers (#include <...>) are taken to exist and are not followed.  Of the rest
    of a header only the names of the macros, types and functions at namespace scope matter that
    it declares or uses. *)
From Coq Require Import Bool String List Arith.
Import ListNotations.
Open Scope string_scope.

Definition path := list string.
(** The source tree's include directory, the one generated in the build tree, the one below the
    installation prefix, and directories of the client. *)
Inductive root := Sources | Generated | Prefix | Client (n : nat).
Definition location := (root * path)%type.
Record header := {
  once : bool;               (* #pragma once *)
  includes : list path;      (* #include "..." *)
  declares : list string;
  uses : list string }.
Definition file (o : bool) (i : list path) (d u : list string) : header :=
  {| once := o; includes := i; declares := d; uses := u |}.

(** ** Resolving a name *)
Definition root_eqb (a b : root) : bool :=
  match a, b with
  | Sources, Sources | Generated, Generated | Prefix, Prefix => true
  | Client n, Client m => Nat.eqb n m
  | _, _ => false
  end.
Fixpoint path_eqb (a b : path) : bool :=
  match a, b with
  | [], [] => true
  | x :: a', y :: b' => String.eqb x y && path_eqb a' b'
  | _, _ => false
  end.
Definition loc_eqb (a b : location) : bool := root_eqb (fst a) (fst b) && path_eqb (snd a) (snd b).
Definition seen_before (l : location) (s : list location) : bool := existsb (loc_eqb l) s.
(** ".." goes up; [d] is the directory so far, innermost component first. *)
Fixpoint walk (d : path) (p : path) : option path :=
  match p with
  | [] => Some (rev d)
  | c :: p' =>
      if String.eqb c ".." then match d with [] => None | _ :: d' => walk d' p' end
      else if String.eqb c "." then walk d p'
      else walk (c :: d) p'
  end.
Definition directory (p : path) : path := removelast p.
Definition tree := location -> option header.
Definition present (t : tree) (r : root) (d p : path) : option location :=
  match walk (rev d) p with
  | Some q => match t (r, q) with Some _ => Some (r, q) | None => None end
  | None => None
  end.
Fixpoint search (t : tree) (dirs : list root) (p : path) : option location :=
  match dirs with
  | [] => None
  | r :: dirs' => match present t r [] p with Some l => Some l | None => search t dirs' p end
  end.
(** #include "p" in the file [cur]: its own directory, then the include directories in order. *)
Definition resolve (t : tree) (dirs : list root) (cur : location) (p : path) : option location :=
  match present t (fst cur) (directory (snd cur)) p with
  | Some l => Some l
  | None => search t dirs p
  end.

(** ** Pasting *)
(** The locations of the files pasted, in the order in which their own text appears. *)
Inductive pasted :=
| Pasted (seen out : list location)
| NotFound (p : path)
| TooDeep.
Fixpoint paste (depth : nat) (t : tree) (dirs : list root) (cur : location) (incs : list path) (seen : list location) {struct depth} : pasted :=
  match depth with
  | O => TooDeep
  | S depth' =>
      (fix each (incs : list path) (seen : list location) {struct incs} : pasted :=
         match incs with
         | [] => Pasted seen []
         | p :: incs' =>
             match resolve t dirs cur p with
             | None => NotFound p
             | Some l =>
                 match t l with
                 | None => NotFound p
                 | Some h =>
                     if once h && seen_before l seen then each incs' seen
                     else match paste depth' t dirs l (includes h) (l :: seen) with
                          | Pasted s o => match each incs' s with
                                          | Pasted s' o' => Pasted s' (o ++ [l] ++ o')
                                          | e => e
                                          end
                          | e => e
                          end
                 end
             end
         end) incs seen
  end.

(** ** The files *)
Fixpoint lookup {A} (p : path) (l : list (path * A)) : option A :=
  match l with
  | [] => None
  | (q, a) :: l' => if path_eqb p q then Some a else lookup p l'
  end.
(** The quoted includes of each header are its lines #include "..."; Shiva.hpp is the
    only one without #pragma once.  (namespaceDocumentation.hpp, which stops with #error, is left
    out.)  Where SHIVA_ASSERT_MSG is used, so is the function in its expansion (ShivaMacros.hpp
    line 150). *)
Definition headers : list (path * header) := [
  (["shiva"; "common"; "ShivaMacros.hpp"],
   file true [["shiva"; "ShivaConfig.hpp"]]
     ["SHIVA_ENABLE_DEVICE"; "SHIVA_DEVICE_CONTEXT"; "SHIVA_HOST"; "SHIVA_DEVICE"; "SHIVA_HOST_DEVICE"; "SHIVA_FORCE_INLINE"; "SHIVA_GLOBAL"; "SHIVA_CONSTEXPR_HOSTDEVICE_FORCEINLINE"; "SHIVA_STATIC_CONSTEXPR_HOSTDEVICE_FORCEINLINE"; "SHIVA_S_CEVAL_HD_I"; "SHIVA_UNUSED_VAR"; "SHIVA_HAS_BUILTIN"; "SHIVA_IS_CONST_EVAL"; "SHIVA_ASSERT_MSG"; "i_g_n_o_r_e"]
     ["SHIVA_ENABLE_CUDA"; "SHIVA_ENABLE_HIP"]);
  (["shiva"; "common"; "ShivaErrorHandling.hpp"],
   file true [["ShivaMacros.hpp"]]
     ["shivaAssertionFailed"]
     ["SHIVA_HOST_DEVICE"]);
  (["shiva"; "common"; "types.hpp"],
   file true [["shiva"; "common"; "ShivaMacros.hpp"]]
     ["tuple"; "make_tuple"; "int_sequence"; "make_int_sequence"]
     ["SHIVA_CONSTEXPR_HOSTDEVICE_FORCEINLINE"; "SHIVA_ENABLE_CAMP"; "SHIVA_ENABLE_CUDA"]);
  (["shiva"; "common"; "CArrayHelper.hpp"],
   file true [["shiva"; "common"; "ShivaErrorHandling.hpp"]; ["shiva"; "common"; "types.hpp"]]
     ["CArrayHelper"]
     ["SHIVA_ASSERT_MSG"; "SHIVA_ENABLE_BOUNDS_CHECK"; "SHIVA_FORCE_INLINE"; "SHIVA_HOST_DEVICE"; "SHIVA_STATIC_CONSTEXPR_HOSTDEVICE_FORCEINLINE"; "tuple"; "shivaAssertionFailed"]);
  (["shiva"; "common"; "CArray.hpp"],
   file true [["shiva"; "common"; "ShivaMacros.hpp"]; ["CArrayHelper.hpp"]]
     ["CArray"; "Scalar"; "CArrayNd"; "ScalarView"; "CArrayViewNd"]
     ["CArrayHelper"; "SHIVA_ASSERT_MSG"; "SHIVA_CONSTEXPR_HOSTDEVICE_FORCEINLINE"; "SHIVA_ENABLE_BOUNDS_CHECK"; "SHIVA_STATIC_CONSTEXPR_HOSTDEVICE_FORCEINLINE"; "shivaAssertionFailed"]);
  (["shiva"; "common"; "LinearIndex.hpp"],
   file true []
     ["LinearIndex"]
     []);
  (["shiva"; "common"; "MultiIndex.hpp"],
   file true [["shiva"; "common"; "ShivaMacros.hpp"]; ["SequenceUtilities.hpp"]]
     ["MultiIndex"; "MultiIndexRange"; "MultiIndexRangeI"]
     ["SHIVA_STATIC_CONSTEXPR_HOSTDEVICE_FORCEINLINE"]);
  (["shiva"; "common"; "IndexTypes.hpp"],
   file true [["LinearIndex.hpp"]; ["MultiIndex.hpp"]]
     ["linearIndex"; "forRange"; "detail"]
     ["LinearIndex"; "MultiIndexRange"; "SHIVA_CONSTEXPR_HOSTDEVICE_FORCEINLINE"]);
  (["shiva"; "common"; "SequenceUtilities.hpp"],
   file true [["shiva"; "common"; "ShivaMacros.hpp"]]
     ["SequenceAlias"; "IntPackPeeler"; "SequenceExpansion"; "executeSequence"; "forSequence"; "staticFor"]
     ["SHIVA_STATIC_CONSTEXPR_HOSTDEVICE_FORCEINLINE"]);
  (["shiva"; "common"; "NestedSequenceUtilities.hpp"],
   file true [["shiva"; "common"; "ShivaMacros.hpp"]; ["SequenceUtilities.hpp"]]
     ["NestedSequenceExpansion"; "forNestedSequence"]
     ["forSequence"]);
  (["shiva"; "common"; "MathUtilities.hpp"],
   file true [["shiva"; "common"; "ShivaMacros.hpp"]]
     ["mathUtilities"; "factorial"; "binomialCoefficient"]
     ["SHIVA_CONSTEXPR_HOSTDEVICE_FORCEINLINE"]);
  (["shiva"; "common"; "pmpl.hpp"],
   file true [["ShivaMacros.hpp"]]
     ["pmpl"; "genericKernelWrapper"; "deallocateData"]
     ["SHIVA_CONSTEXPR_HOSTDEVICE_FORCEINLINE"; "SHIVA_ENABLE_CUDA"; "SHIVA_ENABLE_DEVICE"; "SHIVA_ENABLE_HIP"; "SHIVA_GLOBAL"; "SHIVA_UNUSED_VAR"]);
  (["shiva"; "functions"; "bases"; "BasisProduct.hpp"],
   file true [["shiva"; "common"; "NestedSequenceUtilities.hpp"]; ["shiva"; "common"; "MultiIndex.hpp"]; ["shiva"; "common"; "CArray.hpp"]]
     ["BasisProduct"]
     ["CArrayNd"; "MultiIndexRangeI"; "SHIVA_STATIC_CONSTEXPR_HOSTDEVICE_FORCEINLINE"; "SequenceAlias"; "executeSequence"; "forNestedSequence"]);
  (["shiva"; "functions"; "bases"; "LagrangeBasis.hpp"],
   file true [["shiva"; "common"; "SequenceUtilities.hpp"]; ["shiva"; "common"; "ShivaMacros.hpp"]]
     ["LagrangeBasis"]
     ["SHIVA_STATIC_CONSTEXPR_HOSTDEVICE_FORCEINLINE"; "executeSequence"]);
  (["shiva"; "functions"; "spacing"; "Spacing.hpp"],
   file true [["shiva"; "common"; "ShivaMacros.hpp"]]
     ["EqualSpacing"; "GaussLegendreSpacing"; "GaussLobattoSpacing"]
     ["SHIVA_STATIC_CONSTEXPR_HOSTDEVICE_FORCEINLINE"]);
  (["shiva"; "functions"; "quadrature"; "Quadrature.hpp"],
   file true [[".."; "spacing"; "Spacing.hpp"]]
     ["QuadratureGaussLegendre"; "QuadratureGaussLobatto"]
     ["GaussLegendreSpacing"; "GaussLobattoSpacing"; "SHIVA_STATIC_CONSTEXPR_HOSTDEVICE_FORCEINLINE"]);
  (["shiva"; "geometry"; "shapes"; "NCube.hpp"],
   file true [["shiva"; "common"; "ShivaMacros.hpp"]; ["shiva"; "common"; "IndexTypes.hpp"]; ["shiva"; "common"; "types.hpp"]; ["shiva"; "common"; "MathUtilities.hpp"]]
     ["NCube"; "Square"; "Cube"]
     ["SHIVA_STATIC_CONSTEXPR_HOSTDEVICE_FORCEINLINE"; "factorial"; "mathUtilities"]);
  (["shiva"; "geometry"; "shapes"; "NSimplex.hpp"],
   file true [["shiva"; "common"; "ShivaMacros.hpp"]; ["shiva"; "common"; "IndexTypes.hpp"]; ["shiva"; "common"; "types.hpp"]; ["shiva"; "common"; "MathUtilities.hpp"]]
     ["NSimplex"; "Triangle"; "Tetrahedron"]
     ["SHIVA_STATIC_CONSTEXPR_HOSTDEVICE_FORCEINLINE"; "binomialCoefficient"; "mathUtilities"]);
  (["shiva"; "geometry"; "shapes"; "InterpolatedShape.hpp"],
   file true [["shiva"; "common"; "SequenceUtilities.hpp"]; ["shiva"; "common"; "ShivaMacros.hpp"]; ["shiva"; "common"; "types.hpp"]; ["shiva"; "functions"; "bases"; "BasisProduct.hpp"]]
     ["InterpolatedShape"]
     ["BasisProduct"; "CArrayNd"; "SHIVA_STATIC_CONSTEXPR_HOSTDEVICE_FORCEINLINE"]);
  (["shiva"; "geometry"; "mapping"; "LinearTransform.hpp"],
   file true [["shiva"; "common"; "MathUtilities.hpp"]; ["shiva"; "common"; "ShivaMacros.hpp"]; ["shiva"; "common"; "types.hpp"]; ["shiva"; "common"; "IndexTypes.hpp"]; ["shiva"; "common"; "NestedSequenceUtilities.hpp"]; ["shiva"; "common"; "CArray.hpp"]]
     ["LinearTransform"]
     ["CArrayNd"; "SHIVA_FORCE_INLINE"; "SHIVA_HOST_DEVICE"; "SHIVA_STATIC_CONSTEXPR_HOSTDEVICE_FORCEINLINE"; "SequenceAlias"; "forNestedSequence"; "forRange"; "mathUtilities"]);
  (["shiva"; "geometry"; "mapping"; "Scaling.hpp"],
   file true [["shiva"; "common"; "ShivaMacros.hpp"]; ["shiva"; "common"; "types.hpp"]; ["shiva"; "common"; "CArray.hpp"]]
     ["Scaling"]
     ["CArrayNd"; "SHIVA_FORCE_INLINE"; "SHIVA_HOST_DEVICE"; "SHIVA_STATIC_CONSTEXPR_HOSTDEVICE_FORCEINLINE"]);
  (["shiva"; "geometry"; "mapping"; "UniformScaling.hpp"],
   file true [["shiva"; "common"; "ShivaMacros.hpp"]; ["shiva"; "common"; "IndexTypes.hpp"]; ["shiva"; "common"; "types.hpp"]; ["shiva"; "common"; "CArray.hpp"]]
     ["UniformScaling"]
     ["SHIVA_FORCE_INLINE"; "SHIVA_HOST_DEVICE"; "SHIVA_STATIC_CONSTEXPR_HOSTDEVICE_FORCEINLINE"; "Scalar"]);
  (["shiva"; "geometry"; "mapping"; "JacobianTransforms.hpp"],
   file true [["LinearTransform.hpp"]; ["Scaling.hpp"]; ["UniformScaling.hpp"]]
     ["inverseJacobian"]
     ["SHIVA_STATIC_CONSTEXPR_HOSTDEVICE_FORCEINLINE"; "make_tuple"]);
  (["shiva"; "discretizations"; "finiteElementMethod"; "parentElements"; "ParentElement.hpp"],
   file true [["shiva"; "common"; "NestedSequenceUtilities.hpp"]; ["shiva"; "common"; "ShivaMacros.hpp"]; ["shiva"; "common"; "types.hpp"]; ["shiva"; "functions"; "bases"; "BasisProduct.hpp"]]
     ["ParentElement"]
     ["BasisProduct"; "CArrayNd"; "SHIVA_STATIC_CONSTEXPR_HOSTDEVICE_FORCEINLINE"; "forNestedSequence"; "forSequence"]);
  (["shiva"; "Shiva.hpp"],
   file false [["geometry"; "Cube.hpp"]; ["geometry"; "Cuboid.hpp"]; ["geometry"; "RectangularCuboid.hpp"]]
     []
     [])].
(** include/shiva/ShivaConfig.hpp.in; a #cmakedefine counts as a declaration either way. *)
Definition config_path : path := ["shiva"; "ShivaConfig.hpp"].
Definition config : header :=
  file true [] ["SHIVA_VERSION_MAJOR"; "SHIVA_VERSION_MINOR"; "SHIVA_VERSION_PATCHLEVEL"; "SHIVA_ENABLE_CUDA"; "SHIVA_ENABLE_HIP";
                "SHIVA_ENABLE_CAMP"; "SHIVA_ENABLE_BOUNDS_CHECK"; "SHIVA_CUDA_MAJOR"; "SHIVA_CUDA_MINOR"] [].

(** The client's own directories hold anything. *)
Definition files_of (client : nat -> path -> option header) : tree := fun l =>
  match l with
  | (Sources, p) => lookup p headers
  | (Generated, p) => if path_eqb p config_path then Some config else None
  | (Prefix, p) => if path_eqb p config_path then Some config else lookup p headers     (* lines 104-108 *)
  | (Client n, p) => client n p
  end.
(** Lines 44-47: the build interface and the install interface. *)
Inductive interface := FromBuildTree | Installed.
Definition target_dirs (i : interface) : list root :=
  match i with FromBuildTree => [Sources; Generated] | Installed => [Prefix] end.

(** A source file of the client (in its directory 0) that includes the headers [l], compiled with
    further include directories of the client before Shiva's; 200 is GCC's limit on nesting. *)
Definition translate (client : nat -> path -> option header) (extra : list nat) (i : interface) (l : list path) : pasted :=
  paste 200 (files_of client) (map Client extra ++ target_dirs i) (Client 0, ["main.cpp"]) l [].
