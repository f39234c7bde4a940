(** Reading printed text: written from the reader's side and independent of
    the functions that print. *)
From Coq Require Import ZArith List Bool String Ascii.
From Verif Require Import Base Num StoreModel VecModel Spec SpecExpr SpecVec SpecSub SpecOut TextModel.
Import ListNotations.
Open Scope Z_scope.

(** Decimal numbers: an optional minus sign and digits, no leading zero and no
    minus zero. *)
Definition digit (c : ascii) : option Z :=
  let n := Z.of_nat (nat_of_ascii c) - 48 in if (0 <=? n) && (n <=? 9) then Some n else None.
Fixpoint digits (acc : Z) (s : string) : option Z :=
  match s with
  | EmptyString => Some acc
  | String c r => match digit c with Some d => digits (10 * acc + d) r | None => None end
  end.
Definition unsigned (s : string) : option Z :=
  match s with
  | EmptyString => None
  | String c r =>
      match digit c with
      | Some d => if d =? 0 then (if String.eqb r EmptyString then Some 0 else None) else digits d r
      | None => None
      end
  end.
Definition number (s : string) : option Z :=
  match s with
  | String "-" r => match unsigned r with Some z => if z =? 0 then None else Some (- z) | None => None end
  | _ => unsigned s
  end.

(** The text [t] says the value [v], to a reader who knows how doubles are
    written; logical values are words or digits. *)
Definition says (ds : flt -> string) (words : bool) (v : val) (t : string) : Prop :=
  match v with
  | VI z => number t = Some z
  | VD d => t = ds d
  | VB b => In (b, t) (if words then [(true, "true"); (false, "false")] else [(true, "1"); (false, "0")])%string
  end.

(** The pieces of a text in which every piece ends with the character [c]. *)
Fixpoint cut_from (c : ascii) (cur s : string) : option (list string) :=
  match s with
  | EmptyString => if String.eqb cur EmptyString then Some [] else None
  | String a r =>
      if Ascii.eqb a c then option_map (cons cur) (cut_from c EmptyString r)
      else cut_from c (append cur (String a EmptyString)) r
  end.
Definition cut (c : ascii) (s : string) : option (list string) := cut_from c EmptyString s.

Definition blank : ascii := " ".
Definition tabulator : ascii := ascii_of_nat 9.
Definition newline : ascii := ascii_of_nat 10.

Fixpoint alls {A} (l : list (option A)) : option (list A) :=
  match l with
  | [] => Some []
  | Some a :: r => option_map (cons a) (alls r)
  | None :: _ => None
  end.
(** Lines, and the pieces of every line. *)
Definition table (sep : ascii) (t : string) : option (list (list string)) :=
  match cut newline t with Some ls => alls (map (cut sep) ls) | None => None end.
(** The numbers on the lines. *)
Definition numbers (sep : ascii) (t : string) : option (list (list Z)) :=
  match table sep t with Some g => alls (map (fun ts => alls (map number ts)) g) | None => None end.

(** The text of a double has no blank, tabulator or newline. *)
Fixpoint without (c : ascii) (s : string) : Prop :=
  match s with EmptyString => True | String a r => a <> c /\ without c r end.
Definition clean (ds : flt -> string) : Prop := forall d c, In c [blank; tabulator; newline] -> without c (ds d).

Definition not_double (v : val) : Prop := match v with VD _ => False | _ => True end.
Definition not_logical (v : val) : Prop := match v with VB _ => False | _ => True end.

(** A text printed for an item in the state [a] of the flag, and the flag
    afterwards. *)
Inductive prints (ds : flt -> string) (lm : libm) (w : world) (a : bool) : pitem -> bool -> string -> Prop :=
| Pr_flat e us ts t : flat w e -> yields lm w e us -> Forall2 (says ds true) (map (read e) us) ts ->
    table blank t = Some [ts] -> prints ds lm w a (PVec e) (if us then a else true) t
| Pr_matrix rho e r cs g t : env_of w rho e -> shaped w rho (Z.of_nat r) (Z.of_nat (List.length cs)) e ->
    yields lm w e (List.concat cs) -> Forall (fun col => List.length col = r) cs ->
    Forall2 (Forall2 (says ds a)) (map (fun i => map (fun col => read e (nth i col (VB false))) cs) (seq 0 r)) g ->
    table tabulator t = Some g -> prints ds lm w a (PVec e) a t
| Pr_logical (b : bool) t : says ds true (VB b) t -> prints ds lm w a (PSca (VB b)) true (t ++ String blank (String newline EmptyString))
| Pr_number v t : not_logical v -> says ds a v t -> prints ds lm w a (PSca v) a (t ++ String newline (String newline EmptyString))
| Pr_chars t : prints ds lm w a (PStr t) a (t ++ String newline (String newline EmptyString))
| Pr_newline : prints ds lm w a PNl a (String newline EmptyString)
| Pr_stream x us ts t : vholds w x us -> Forall2 (says ds a) us ts -> cut blank t = Some ts ->
    prints ds lm w a (PStream x) a ("Vec [ " ++ t ++ "]").
Inductive prints_all (ds : flt -> string) (lm : libm) (w : world) : bool -> list pitem -> bool -> string -> Prop :=
| Pa_nil a : prints_all ds lm w a [] a EmptyString
| Pa_cons a p ps a1 a2 t1 t2 : prints ds lm w a p a1 t1 -> prints_all ds lm w a1 ps a2 t2 ->
    prints_all ds lm w a (p :: ps) a2 (t1 ++ t2).
(** Items that can be printed: vectors, expressions and matrices with values. *)
Inductive printable (lm : libm) (w : world) : pitem -> Prop :=
| Pb_flat e us : flat w e -> yields lm w e us -> printable lm w (PVec e)
| Pb_matrix rho e r cs : env_of w rho e -> shaped w rho (Z.of_nat r) (Z.of_nat (List.length cs)) e ->
    yields lm w e (List.concat cs) -> Forall (fun col => List.length col = r) cs ->
    Z.of_nat (List.length (List.concat cs)) < 2 ^ 64 -> printable lm w (PVec e)
| Pb_sca v : printable lm w (PSca v)
| Pb_str t : printable lm w (PStr t)
| Pb_nl : printable lm w PNl
| Pb_stream x us : world_shape w -> vholds w x us -> printable lm w (PStream x).
