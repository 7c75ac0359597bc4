* the numerical fitting of the 14 scipy distributions (`best_fit_distribution`) and their quantile functions: any outcome of the fits.
* `neighbor_generator.random_oversampling`, `random_instance_selection` (imblearn; `fit_sample` and
  `return_indices` are gone from the current release).
* the numerical value of the deviation computed by StandardScaler (any positive number), the scaler object itself.
* mean and deviation of the normal draws (a draw is any number).
* `get_closest_diffoutcome` for a ratio above 1; infinite values; NaN in input data.
* `FuzzySet`/`FuzzyVariable` `__str__` and `__repr__`, plotting, printing with verbose (printed rules and trees are modelled: C113-C116).
* reading the files (`pd.read_csv`): the loaders are modelled from the table on; `generate_dataset` on a table with missing values.
