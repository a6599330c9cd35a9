(** The registry of sparse matrix types (matrixRegistry.go), keyed by the names
    [reflect] reports. *)
From Coq Require Import String.
From Verif Require Import GoBase Num SparseVec Csr Csc DenseVec DenseMat Mat.
Local Open Scope string_scope.

(** [reflect.Type], as far as Name and Elem see it: a defined type has a package, a name
    (without the package; for an instance of a generic type it includes the type
    argument, as in "CSRMatrix[float64]") and, if its underlying type is a pointer, slice,
    array, channel or map, an element type; a type literal has no name. *)
Inductive gotype : Type :=
| TNamed (pkg name : string) (elem : option gotype)
| TLit (elem : option gotype).

(** Go's reflect documentation: [Name] "returns the type's name within its package for a
    defined type. For other (non-defined) types it returns the empty string." *)
Definition type_Name (t : gotype) : string := match t with TNamed _ n _ => n | TLit _ => "" end.
(** [Elem] "panics if the type's Kind is not Array, Chan, Map, Pointer, or Slice" *)
Definition type_Elem (t : gotype) : res gotype :=
  match t with TNamed _ _ (Some e) | TLit (Some e) => Ok e | _ => Panic end.

(** matrixRegistry.go:15: a map from names to types *)
Definition registry : Type := list (string * gotype).
(** [_, found := sparseMatrixRegistry[name]], matrixRegistry.go:19, 29 *)
Definition found (reg : registry) (name : string) : bool := existsb (fun q => String.eqb (fst q) name) reg.

(** matrixRegistry.go:18-24 [RegisterMatrix] *)
Definition Register (reg : registry) (t : gotype) : res registry :=
  if found reg (type_Name t) then Panic else Ok ((type_Name t, t) :: reg).

(** matrixRegistry.go:27-31 [IsSparseMatrix]; the argument is the dynamic type of [s],
    [None] for a nil interface, on whose [reflect.Type] Elem panics *)
Definition IsSparse (reg : registry) (s : option gotype) : res bool :=
  match s with
  | None => Panic
  | Some t => e <- type_Elem t ;; Ok (found reg (type_Name e))
  end.

(** csrMatrix.go:16-18, cscMatrix.go:17-19, sparseVector.go:20-22: the types registered
    by the package's [init] functions; Go initialises the files in the order of their names *)
Definition package : string := "github.com/rossmerr/graphblas".
(** the generic types of this package, instantiated *)
Definition instance (generic arg : string) : gotype := TNamed package (generic ++ "[" ++ arg ++ "]") None.
(** csrMatrix.go:16-18, cscMatrix.go:17-19, sparseVector.go:20-22 *)
Definition init_types : list gotype := [instance "CSCMatrix" "float64"; instance "CSRMatrix" "float64"; instance "SparseVector" "float64"].

(** a history of registrations; a caller recovers from a panic and goes on *)
Definition attempt (reg : registry) (t : gotype) : registry := match Register reg t with Ok r => r | _ => reg end.
(** several of them *)
Definition history (ts : list gotype) (reg : registry) : registry := fold_left attempt ts reg.
(** the registry once the package is initialised and the types [ts] have been offered *)
Definition registered (ts : list gotype) : registry := history ts (history init_types []).

(** the dynamic type of the library's own matrices: a pointer to the struct *)
Definition generic_name {N} (m : mat N) : string :=
  match m with MCSR _ => "CSRMatrix" | MCSC _ => "CSCMatrix" | MDM _ => "DenseMatrix" | MDV _ => "DenseVector" | MSV _ => "SparseVector" end.
(** csrMatrix.go:21, cscMatrix.go:22, denseMatrix.go:22, denseVector.go:21, sparseVector.go:25 *)
Definition dyn_type {N} (m : mat N) : gotype := TLit (Some (instance (generic_name m) (num_name N))).
