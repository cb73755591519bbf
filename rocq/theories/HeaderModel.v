(** * Model of /repo/arcticpy/util.py:14-90, update_fits_header_info, with the contents of the
    header and its state after an exception.

    The header is changed in place ([ext_header.set]), so a call that raises leaves behind what
    it has set before.  A header is the list of its cards (keyword, value, comment) in order;
    astropy's [Header.set] replaces the value and comment of an existing keyword and appends a
    new one otherwise.  (The limits of the FITS format, such as the eight characters of a
    keyword, upper case, and the types of values, are not modelled.)

    The other arguments are objects of any class: an object is the partial map from the names of
    its attributes to their values ([V] is the type of Python values that are not inspected). *)
From Coq Require Import List Bool String Decimal DecimalString DecimalNat.
From Verif Require Import Num Py CCDModel TrapsModel.
Import ListNotations.
Open Scope string_scope.

Section Header.
Context {V : Type}.
Definition object := string -> option V.
Definition card : Type := string * (V * string).
Definition header := list card.

(** astropy.io.fits Header.set(keyword, value, comment). *)
Fixpoint hset (h : header) (key : string) (value : V) (comment : string) : header :=
  match h with
  | [] => [(key, (value, comment))]
  | (k, old) :: h' => if String.eqb k key then (k, (value, comment)) :: h' else (k, old) :: hset h' key value comment
  end.

(** What a call has done so far: the header, and the exception if one was raised. *)
Definition outcome : Type := header * option exn.
Definition andthen (o : outcome) (k : header -> outcome) : outcome :=
  match o with (h, None) => k h | (h, Some e) => (h, Some e) end.
(** [ext_header.set(key, o.attribute, comment)]: AttributeError, before the header is
    changed, if there is no such attribute. *)
Definition set_attribute (h : header) (key : string) (o : object) (attribute comment : string) : outcome :=
  match o attribute with Some v => (hset h key v comment, None) | None => (h, Some AttributeError) end.

(** The elements of a list of traps (util.py:46, [for i, trap in traps]): objects that cannot be
    unpacked (TypeError), or sequences, of which only those of two items can be (ValueError
    otherwise).  An item is a number or an object; [repr] is what [str.format] makes of an
    object that is in the place of the number. *)
Inductive item := INumber (i : nat) | IObject (o : object).
Inductive element := EObject (o : object) | ESequence (l : list item).
Variable repr : object -> string.
Definition str (i : item) : string :=
  match i with INumber n => NilZero.string_of_uint (Nat.to_uint n) | IObject o => repr o end.
(** A number has none of the attributes. *)
Definition as_object (i : item) : object := match i with INumber _ => fun _ => None | IObject o => o end.

(** util.py:45-56, [add_trap]; name is "Parallel" or "Serial", but the keywords are the same
    for both. *)
Definition add_one_trap (name : string) (i trap : item) (h : header) : outcome :=
  andthen (set_attribute h ("cte_pt" ++ str i ++ "d") (as_object trap) "trap_density" ("Trap trap " ++ str i ++ " density (" ++ name ++ ")"))
    (fun h => set_attribute h ("cte_pt" ++ str i ++ "t") (as_object trap) "trap_lifetime" ("Trap trap " ++ str i ++ " lifetime (" ++ name ++ ")")).
Definition add_element (name : string) (e : element) (h : header) : outcome :=
  match e with
  | EObject _ => (h, Some TypeError)
  | ESequence [i; trap] => add_one_trap name i trap h
  | ESequence _ => (h, Some ValueError)
  end.
Definition add_traps (name : string) (traps : list element) (h : header) : outcome :=
  fold_left (fun o e => andthen o (add_element name e)) traps (h, None).

(** util.py:64-74 and 76-86. *)
Definition add_ccd (notch_key power_key name : string) (c : object) (h : header) : outcome :=
  andthen (set_attribute h notch_key c "well_notch_depth" ("CCD Well notch depth (" ++ name ++ ")"))
    (fun h => set_attribute h power_key c "well_fill_beta" ("CCD Well filling power (" ++ name ++ ")")).

Definition if_given {A} (a : option A) (k : A -> header -> outcome) (h : header) : outcome :=
  match a with Some a => k a h | None => (h, None) end.

(** util.py:14-90.  Everything after the iterations of the parallel clocker is inside
    [if serial_clocker is not None]. *)
Definition update_header (h : header) (parallel_clocker serial_clocker : option object)
    (parallel_traps serial_traps : option (list element)) (parallel_ccd serial_ccd : option object) : outcome :=
  andthen (if_given parallel_clocker (fun c h => set_attribute h "cte_pite" c "iterations" "Iterations Used In Correction (Parallel)") h) (fun h =>
  match serial_clocker with
  | None => (h, None)
  | Some c =>
      andthen (set_attribute h "cte_site" c "iterations" "Iterations Used In Correction (Serial)") (fun h =>
      andthen (if_given parallel_traps (add_traps "Parallel") h) (fun h =>
      andthen (if_given serial_traps (add_traps "Serial") h) (fun h =>
      andthen (if_given serial_ccd (add_ccd "cte_swln" "cte_swlp" "Serial") h) (fun h =>
      if_given parallel_ccd (add_ccd "cte_pwln" "cte_pwlp" "Parallel") h))))
  end).
End Header.
Arguments object : clear implicits.
Arguments header : clear implicits.
Arguments item : clear implicits.
Arguments element : clear implicits.
Arguments outcome : clear implicits.
