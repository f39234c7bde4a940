(** Functions on R matrices, as a user of the library writes them. *)
From Coq Require Import ZArith List.
From Verif Require Import Base Num StoreModel VecModel SubsetModel AllocModel ProgModel LangModel OutModel ForeignModel CallModel
  SpecMul SpecForeign.
Import ListNotations.
Open Scope Z_scope.

Definition the_int (v : val) : Z := match v with VI z => z | _ => 0 end.

(** Vec<int> d = dim(x); int n = at(d, 1); int m = at(d, 2); k(n, m) *)
Definition with_dims (x d s : nat) (k : val -> val -> fbody) : fbody :=
  FLet d s TInt (LMDim (LV TDouble (LVar x))) (FScal (LAt d (PZ 1)) (fun n => FScal (LAt d (PZ 2)) (fun m => k n m))).

(** SEXP f(SEXP xr) {
      Vec<double> x; x = xr;
      Vec<int> d = dim(x); int n = at(d, 1); int m = at(d, 2);
      Vec<double> y = matrix(0.0, m, n);
      for (auto i : colon(1, n)) for (auto j : colon(1, m)) at(y, j, i) = at(x, i, j);
      return cpp2R(y); } *)
Definition transpose_fn : fbody :=
  with_dims 0 1 2 (fun n m =>
    FLet 3 4 TDouble (LMMatrix (LS (VD fzero)) (LS m) (LS n))
      (FDo (for_range 5 (the_int n) (fun i => for_range 6 (the_int m) (fun j =>
              LScal (LAt2 0 (PZ i) (PZ j)) (fun v => LAt2Set 3 (PZ j) (PZ i) v))))
           (FRet TDouble (LVar 3)))).

(** SEXP f(SEXP xr, SEXP yr) { the same for the product of x and y } *)
Definition matmul_fn : fbody :=
  with_dims 0 2 3 (fun n p => with_dims 1 4 5 (fun _ m =>
    FLet 6 7 TDouble (LMMatrix (LS (VD fzero)) (LS n) (LS m))
      (FDo (for_range 8 (the_int n) (fun i => for_range 9 (the_int m) (fun j => for_range 10 (the_int p) (fun k =>
              LScal (LBin OPlus (LAt2 6 (PZ i) (PZ j)) (LBin OTimes (LAt2 0 (PZ i) (PZ k)) (LAt2 1 (PZ k) (PZ j))))
                (fun v => LAt2Set 6 (PZ i) (PZ j) v)))))
           (FRet TDouble (LVar 6))))).

(** R object r is a numeric matrix with n rows, m columns and the elements l,
    column by column. *)
Definition r_matrix (w : world) (r : robj) (n m : nat) (l : list flt) : Prop :=
  r_has w r (map VD l) /\ r_ty r = TDouble /\ r_dim r = Some (Z.of_nat n, Z.of_nat m) /\ length l = (n * m)%nat.
