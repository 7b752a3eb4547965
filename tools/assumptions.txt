`Print Assumptions` answers "Closed under the global context" for 738 of the 738 theorems of MANIFEST.json.
No theorem depends on any axiom, also none of the standard library's.
