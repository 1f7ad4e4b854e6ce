(** Specification vocabulary for grouped reactions: sums over balanced choices
    of one size in each participating interval. Independent of the code. *)
From Verif Require Export RegionModel.

(** Sum of [w] over all (n,l,s,m) in c1 x c2 x c3 x c4 with n + l = s + m. *)
Definition msum (c1 c2 c3 c4 : ival) (w : Z -> Z -> Z -> Z -> R) : R :=
  Rsum (pts c1) (fun n => Rsum (pts c2) (fun l => Rsum (pts c3) (fun s =>
    Rsum (pts c4) (fun m => if (n + l =? s + m)%Z then w n l s m else 0)))).

(** The list of balanced quadruples, used to state counting. *)
Definition balanced (c1 c2 c3 c4 : ival) : list (Z * Z * Z * Z) :=
  filter (fun '(n, l, s, m) => (n + l =? s + m)%Z)
    (list_prod (list_prod (list_prod (pts c1) (pts c2)) (pts c3)) (pts c4)).
